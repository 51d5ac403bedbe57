(** * Facts about the multivariate real instances. *)
From Coq Require Import ZArith Reals Lra Lia.
From Coq Require List Permutation.
From mathcomp Require Import all_ssreflect all_algebra.
From mathcomp.algebra_tactics Require Import ring.
From Verif Require Import Base Hier Algos Spec MargFacts NealFacts MargMore MargProps StatFacts.
From Verif Require Import PartSpec XReal Mixings MixFacts GibbsSpec GibbsComb GibbsPost GibbsFacts GibbsSweep.
From Verif Require Import Univ UnivFacts RealInst RealFacts RealField MatLib Multi MultiFacts NnwFacts LinFacts Fa FaFacts MultiInst.
Set Implicit Arguments.
Unset Strict Implicit.
Unset Printing Implicit Defensive.
Import Order.TTheory GRing.Theory Num.Theory.
Local Open Scope ring_scope.

(** Data of a set of observations. *)
Definition pickv d (data : seq 'cV[R]_d) (ids : seq nat) : seq 'cV[R]_d := [seq List.nth j data 0 | j <- ids].
Definition pickx d (data : seq R) (xs : seq 'cV[R]_d) (ids : seq nat) : seq (R * 'cV[R]_d) :=
  [seq (List.nth j data 0, List.nth j xs 0) | j <- ids].

Lemma length_map : forall (A B : Type) (f : A -> B) l, length (map f l) = length l.
Proof. by move=> A B f; elim=> //= a l ->. Qed.
Lemma lengthE : forall (A : Type) (l : seq A), length l = size l.
Proof. by []. Qed.
Lemma perm_of : forall (A : eqType) (a b : seq A), Permutation.Permutation a b -> perm_eq a b.
Proof.
  move=> A a b; elim=> [|x l l' _ IH|x y l|l l' l'' _ H1 _ H2] //; first by rewrite perm_cons.
  - by apply/permP => P /=; rewrite addnCA.
  - exact: perm_trans H1 H2.
Qed.

Lemma softmax_length : forall ws, length (softmax ws) = length ws.
Proof. by move=> ws; rewrite /softmax List.map_length. Qed.
Lemma cat_in_range : forall (G : gen) ws (r : Gs G), gen_ok G -> ws <> nil -> (fst (g_cat G (softmax ws) r) < length ws)%coq_nat.
Proof.
  move=> G ws r HG Hn. rewrite -softmax_length. apply: HG. by case: ws Hn.
Qed.
Lemma unif_in_range : forall (G : gen) n (r : Gs G), gen_ok G -> (0 < n)%coq_nat ->
  (fst (g_cat G (List.repeat (Rinv (INR n)) n) r) < n)%coq_nat.
Proof.
  move=> G n r HG Hn. have := HG (List.repeat (Rinv (INR n)) n) r. rewrite List.repeat_length. apply.
  by case: n Hn => [/Nat.lt_irrefl|].
Qed.

(** ** Reversible, commuting statistics *)
Lemma nnw_laws : forall lg G M d (p : nw_prior d), gen_ok G -> laws (@nnw_iface lg G M d p).
Proof.
  move=> lg G M d p HG; constructor=> //=.
  - move=> ws r; exact: cat_in_range.
  - move=> n r; exact: unif_in_range.
  - by move=> y _ [a b]; rewrite /mnorm_op /= !addrK.
  - by move=> y _ y' _ [a b]; rewrite /mnorm_op /=; congr pair; rewrite -!addrA [in LHS](addrC _ y, addrC _ (y *m _)).
Qed.
Lemma lin_laws : forall lg G M d, gen_ok G -> laws (@lin_iface lg G M d).
Proof.
  move=> lg G M d HG; constructor=> //=.
  - move=> ws r; exact: cat_in_range.
  - move=> n r; exact: unif_in_range.
  - move=> y [x|] [[a b] c] //; by rewrite /lin_op /= !addrK.
  - move=> y [x|] y' [x'|] [[a b] c] //; rewrite /lin_op /=. congr (_, _, _); rewrite -!addrA; congr (_ + _); exact: addrC.
Qed.
Lemma fa_laws : forall G p q (data : seq 'cV[R]_p), gen_ok G -> laws (@fa_iface G p q data).
Proof.
  move=> G p q data HG; constructor=> //=.
  - move=> ws r; exact: cat_in_range.
  - move=> n r; exact: unif_in_range.
  - by move=> y _ s; rewrite /fa_op addrK.
  - by move=> y _ y' _ s; rewrite /fa_op -!addrA [y' + y]addrC.
Qed.

(** ** Statistics from scratch *)
Lemma fold_mnorm : forall d (ys : seq 'cV[R]_d) s,
  List.fold_left (fun s y => mnorm_op y true s) ys s = (s.1 + \sum_(y <- ys) y, s.2 + \sum_(y <- ys) y *m y^T).
Proof. by move=> d; elim=> [|y ys IH] [a b] /=; rewrite ?big_nil ?addr0 // IH !big_cons /= !addrA. Qed.
Lemma fold_lin : forall d (ys : seq (R * 'cV[R]_d)) s,
  List.fold_left (fun s o => lin_op o.1 o.2 true s) ys s =
  (s.1.1 + \sum_(o <- ys) o.1 ^+ 2, s.1.2 + \sum_(o <- ys) o.2 *m o.2^T, s.2 + \sum_(o <- ys) o.1 *: o.2).
Proof. by move=> d; elim=> [|y ys IH] [[a b] c] /=; rewrite ?big_nil ?addr0 // IH !big_cons /= !addrA expr2. Qed.
Lemma fold_fa : forall p (ys : seq 'cV[R]_p) s, List.fold_left (fun s y => fa_op y true s) ys s = s + \sum_(y <- ys) y.
Proof. by move=> p; elim=> [|y ys IH] s /=; rewrite ?big_nil ?addr0 // IH !big_cons /= !addrA. Qed.

Lemma mapE : forall (A B : Type) (f : A -> B) l, List.map f l = map f l.
Proof. by []. Qed.

Lemma at_nth' : forall (A : Type) (l : seq A) j d x, at_ l j = Ok x -> List.nth j l d = x.
Proof. move=> A l j d x H. exact: RealFacts.at_nth H. Qed.

Lemma nnw_batch : forall lg G M d (p : nw_prior d) (data : seq 'cV[R]_d) covs ids,
  (forall j, List.In j ids -> (j < length data)%coq_nat /\ (j < length covs)%coq_nat) ->
  batch (@nnw_iface lg G M d p) data (at_ covs) ids = mstats_of (pickv data ids).
Proof.
  move=> lg G M d p data covs ids H.
  have E := @batch_fold (@nnw_iface lg G M d p) data covs 'cV[R]_d (fun j => List.nth j data 0) (fun y s => mnorm_op y true s) ids.
  rewrite E ?mapE ?fold_mnorm //=; first by rewrite !add0r.
  by move=> i y c s _ /(at_nth' 0) -> _.
Qed.
Lemma lin_batch : forall lg G M d (data : seq R) (xs : seq 'cV[R]_d) ids,
  (forall j, List.In j ids -> (j < length data)%coq_nat /\ (j < length xs)%coq_nat) ->
  batch (@lin_iface lg G M d) data (at_ (List.map Some xs)) ids = lin_stats_of (pickx data xs ids).
Proof.
  move=> lg G M d data xs ids H.
  have E := @batch_fold (@lin_iface lg G M d) data (List.map Some xs) (R * 'cV[R]_d)%type
    (fun j => (List.nth j data 0, List.nth j xs 0)) (fun o s => lin_op o.1 o.2 true s) ids.
  rewrite E ?mapE ?fold_lin //=; first by rewrite !add0r.
  - move=> i y c s Hi /(at_nth' 0) -> Hc. have [_ Hx] := H i Hi.
    have [x [Ex _]] := at_ok xs Hx. rewrite (at_nth' 0 Ex).
    move: Hc Ex; rewrite /at_ List.nth_error_map. case: (List.nth_error xs i) => //= a [<-] [->] //.
  - by move=> i /H; rewrite length_map.
Qed.
Lemma fa_batch : forall G p q (data : seq 'cV[R]_p) covs ids,
  (forall j, List.In j ids -> (j < length data)%coq_nat /\ (j < length covs)%coq_nat) ->
  batch (@fa_iface G p q data) data (at_ covs) ids = \sum_(y <- pickv data ids) y.
Proof.
  move=> G p q data covs ids H.
  have E := @batch_fold (@fa_iface G p q data) data covs 'cV[R]_p (fun j => List.nth j data 0) (fun y s => fa_op y true s) ids.
  rewrite E ?mapE ?fold_fa //=; first by rewrite !add0r.
  by move=> i y c s _ /(at_nth' 0) -> _.
Qed.

(** ** Statistics after any history (C15) *)
Section History.
  Variable G : gen.
  Hypothesis HG : gen_ok G.

  Lemma uni_history : forall lg p (data : seq R) covs hy os h r h' r',
    empty_cluster (I := nnig_iface lg G p) h -> h_steps (I := nnig_iface lg G p) data covs hy os (h, r) = Ok (h', r') ->
    (forall i, List.In i (h_ids h') <-> left_from os false i = true) /\ List.NoDup (h_ids h') /\
    h_card h' = Z.of_nat (length (h_ids h')) /\
    h_stats h' = (\sum_(i <- h_ids h') List.nth i data 0, \sum_(i <- h_ids h') (List.nth i data 0) ^+ 2).
  Proof.
    move=> lg p data covs hy os h r h' r' He H.
    have [S1 [S2 [S3 [S4 S5]]]] := @stats_history (nnig_iface lg G p) data _ (nnig_laws lg G p HG) hy os h r h' r' He H.
    split=> //; split; first exact: ssorted_NoDup. split=> //. rewrite S4.
    have E := @batch_fold (nnig_iface lg G p) data covs R (fun j => List.nth j data 0) (fun y s => norm_op y true s) (h_ids h').
    rewrite E //=; last by move=> i y c s _ /(at_nth' 0) -> _.
    have K : forall l s, List.fold_left (fun s y => norm_op y true s) (List.map (fun j => List.nth j data 0) l) s =
      (s.1 + \sum_(i <- l) List.nth i data 0, s.2 + \sum_(i <- l) (List.nth i data 0) ^+ 2).
    { elim=> [|i l IH] [a b] /=; rewrite ?big_nil ?addr0 // IH !big_cons /= expr2.
      by congr pair; rewrite addrA. }
    by rewrite K /= !add0r.
  Qed.
  Lemma multi_history : forall lg M d (p : nw_prior d) (data : seq 'cV[R]_d) covs hy os h r h' r',
    empty_cluster (I := @nnw_iface lg G M d p) h -> h_steps (I := @nnw_iface lg G M d p) data covs hy os (h, r) = Ok (h', r') ->
    (forall i, List.In i (h_ids h') <-> left_from os false i = true) /\ List.NoDup (h_ids h') /\
    h_card h' = Z.of_nat (length (h_ids h')) /\
    h_stats h' = (\sum_(i <- h_ids h') List.nth i data 0, \sum_(i <- h_ids h') List.nth i data 0 *m (List.nth i data 0)^T).
  Proof.
    move=> lg M d p data covs hy os h r h' r' He H.
    have [S1 [S2 [S3 [S4 S5]]]] := @stats_history (@nnw_iface lg G M d p) data _ (nnw_laws lg M p HG) hy os h r h' r' He H.
    split=> //; split; first exact: ssorted_NoDup. split=> //. by rewrite S4 nnw_batch // /mstats_of /pickv !big_map.
  Qed.
  Lemma lin_history : forall lg M d (data : seq R) (xs : seq 'cV[R]_d) hy os h r h' r',
    empty_cluster (I := @lin_iface lg G M d) h ->
    h_steps (I := @lin_iface lg G M d) data (List.map Some xs) hy os (h, r) = Ok (h', r') ->
    (forall i, List.In i (h_ids h') <-> left_from os false i = true) /\ List.NoDup (h_ids h') /\
    h_card h' = Z.of_nat (length (h_ids h')) /\
    h_stats h' = (\sum_(i <- h_ids h') (List.nth i data 0) ^+ 2,
                  \sum_(i <- h_ids h') List.nth i xs 0 *m (List.nth i xs 0)^T,
                  \sum_(i <- h_ids h') List.nth i data 0 *: List.nth i xs 0).
  Proof.
    move=> lg M d data xs hy os h r h' r' He H.
    have [S1 [S2 [S3 [S4 S5]]]] := @stats_history (@lin_iface lg G M d) data _ (@lin_laws lg G M d HG) hy os h r h' r' He H.
    split=> //; split; first exact: ssorted_NoDup. split=> //. rewrite S4 lin_batch ?/lin_stats_of ?/pickx ?big_map //.
    by move=> j /S5; rewrite length_map.
  Qed.
  Lemma fa_history : forall p q (data : seq 'cV[R]_p) covs hy os h r h' r',
    empty_cluster (I := @fa_iface G p q data) h -> h_steps (I := @fa_iface G p q data) data covs hy os (h, r) = Ok (h', r') ->
    (forall i, List.In i (h_ids h') <-> left_from os false i = true) /\ List.NoDup (h_ids h') /\
    h_card h' = Z.of_nat (length (h_ids h')) /\ h_stats h' = \sum_(i <- h_ids h') List.nth i data 0.
  Proof.
    move=> p q data covs hy os h r h' r' He H.
    have [S1 [S2 [S3 [S4 S5]]]] := @stats_history (@fa_iface G p q data) data _ (@fa_laws G p q data HG) hy os h r h' r' He H.
    split=> //; split; first exact: ssorted_NoDup. split=> //. by rewrite S4 fa_batch // /pickv big_map.
  Qed.
End History.

(** ** Collapsed Gibbs sweeps (C35) *)
Lemma exp_sum : forall (A : Type) (f : A -> R) l, exp (\sum_(j <- l) f j) = prodR (List.map (fun j => exp (f j)) l).
Proof. move=> A f; elim=> [|j l IH]; first by rewrite big_nil; exact: exp_0. rewrite big_cons.
  rewrite -[RHS]/(exp (f j) * prodR (List.map (fun j => exp (f j)) l)) -IH. exact: exp_plus. Qed.
Lemma expD : forall a b : R, exp (a + b) = exp a * exp b.
Proof. move=> a b; exact: exp_plus. Qed.

Lemma unit_rows : forall (I : Iface) (data : list (Datum I)) (c : Cov I), (forall d c, row_ok I d c = true) ->
  rows_ok I data (at_ (List.repeat c (length data))).
Proof.
  move=> I data c H j Hj. have [d [Ed _]] := at_ok data Hj.
  have Hj' : (j < length (List.repeat c (length data)))%coq_nat by rewrite List.repeat_length.
  have [c' [Ec _]] := at_ok _ Hj'. by exists d, c'.
Qed.
Lemma lin_rows : forall lg G M d (data : seq R) (xs : seq 'cV[R]_d), length xs = length data ->
  rows_ok (@lin_iface lg G M d) data (at_ (List.map Some xs)).
Proof.
  move=> lg G M d data xs E j Hj. have [y [Ey _]] := at_ok data Hj.
  have Hj' : (j < length xs)%coq_nat by rewrite E.
  have [x [Ex En]] := at_ok xs Hj'. exists y, (Some x); split=> //; split=> //.
  by rewrite /at_ List.nth_error_map En.
Qed.

Lemma nw_of_proto_set : forall d (h h' : nw d) ys, nw_valid h ->
  nw_set_proto (nnw_post h (cardZ' ys) (mstats_of ys)) = Ok h' -> nw_of_proto (nnw_post h (cardZ' ys) (mstats_of ys)) = h'.
Proof.
  move=> d h h' ys HV. rewrite /nw_set_proto. case E: (inverse_spd _) => [B|m||] //= -[<-].
  move/inverse_spd_ok: E => [_ ->]. by [].
Qed.
Lemma nw_log_marg_perm : forall lg d (h : nw d) a b, perm_eq a b -> nw_log_marg lg h a = nw_log_marg lg h b.
Proof. by move=> lg d h a b H; rewrite /nw_log_marg (nnw_perm h H) (perm_size H). Qed.
Lemma lin_log_marg_perm : forall lg d (h : mnig d) a b, perm_eq a b -> lin_log_marg lg h a = lin_log_marg lg h b.
Proof. by move=> lg d h a b H; rewrite /lin_log_marg (lin_perm h H) (perm_size H). Qed.

Lemma exp_gt0 : forall x, (0 < exp x)%R.
Proof. move=> x; apply/RltE; exact: exp_pos. Qed.
Lemma cardZ_pick : forall (A : Type) (f : nat -> A) ids, Z.of_nat (length ids) = cardZ' (map f ids).
Proof. by move=> A f ids; rewrite /cardZ' size_map. Qed.

Lemma nnw_marginal : forall lg G M d (p : nw_prior d) (data : seq 'cV[R]_d) hy, (0 < d)%N -> nw_valid hy ->
  marginal_likelihood (@nnw_iface lg G M d p) data (List.repeat tt (length data)) xexp hy
    (fun ids => exp (nw_log_marg lg hy (pickv data ids))).
Proof.
  move=> lg G M d p data hy Hd HV. split; [|split; [|split]].
  - move=> ids _; exact: exp_pos.
  - move=> ids ids' /(@perm_of [eqType of nat]) P. congr exp. apply: nw_log_marg_perm. exact: perm_map.
  - move=> i y c Ey _ /=. congr exp. by rewrite nnw_predictive // /pickv /= (at_nth' 0 Ey).
  - move=> i y c ids Ey _ _ _ Hlt. rewrite nnw_batch; last by move=> j /Hlt; rewrite List.repeat_length.
    cbn [val marg_lpdf post nnw_iface xexp]. rewrite (cardZ_pick (fun j => List.nth j data 0)) -/(pickv data ids).
    set q := nnw_post _ _ _. have -> : nw_proto (nw_of_proto q) = q by case: q.
    have [h' [E _]] := nnw_post_valid (pickv data ids) HV.
    rewrite -[RHS]/(exp (nw_log_marg lg hy (List.nth i data 0 :: pickv data ids))) (at_nth' 0 Ey) -(nnw_chain lg y Hd HV E).
    by rewrite expD.
Qed.
Lemma lin_marginal : forall lg G M d (data : seq R) (xs : seq 'cV[R]_d) hy, length xs = length data -> mnig_valid hy ->
  marginal_likelihood (@lin_iface lg G M d) data (List.map Some xs) xexp hy
    (fun ids => exp (lin_log_marg lg hy (pickx data xs ids))).
Proof.
  move=> lg G M d data xs hy EL HV.
  have EX : forall i c, at_ (List.map Some xs) i = Ok c -> c = Some (List.nth i xs 0).
  { move=> i c. rewrite /at_ List.nth_error_map. case E: (List.nth_error xs i) => [x|] //= -[<-].
    by rewrite (List.nth_error_nth _ _ _ E). }
  split; [|split; [|split]].
  - move=> ids _; exact: exp_pos.
  - move=> ids ids' /(@perm_of [eqType of nat]) P. congr exp. apply: lin_log_marg_perm. exact: perm_map.
  - move=> i y c Ey /EX -> /=. congr exp. by rewrite lin_predictive // /pickx /= (at_nth' 0 Ey).
  - move=> i y c ids Ey /EX -> _ _ Hlt. rewrite lin_batch; last by move=> j /Hlt; rewrite EL.
    cbn [val marg_lpdf post lin_iface xexp]. rewrite (cardZ_pick (fun j => (List.nth j data 0, List.nth j xs 0))) -/(pickx data xs ids).
    rewrite -[RHS]/(exp (lin_log_marg lg hy ((List.nth i data 0, List.nth i xs 0) :: pickx data xs ids))) (at_nth' 0 Ey).
    by rewrite -lin_chain // expD.
Qed.

(** States that represent the clustering [s]. *)
Definition represents (I : Iface) (data : list (Datum I)) (covs : list (Cov I)) (hy : Hyp I) (m : Mix I)
    (A : list nat -> alg I) : Prop :=
  forall s, List.In s (clusterings (length data)) ->
    proper (length data) (a_alloc (A s)) (view (a_uv (A s))) /\ caches_ok data covs (a_uv (A s)) /\
    (forall h, List.In h (a_uv (A s)) -> saved_matches data covs (a_hyp (A s)) h) /\
    a_hyp (A s) = hy /\ a_mix (A s) = m /\ canon (a_alloc (A s)) = s.

Lemma nnw_sweep_invariant : forall lg G M d (p : nw_prior d) (data : seq 'cV[R]_d) pick0
    (A : list nat -> alg (@nnw_iface lg G M d p)) hy m t e js,
  gen_ok G -> (0 < d)%N -> nw_valid hy -> strength m = Some (t, e) -> 0 <= e -> e < 1 -> - e < t -> (2 <= length data)%N ->
  (forall i, List.In i js -> (i < length data)%N) ->
  represents (I := @nnw_iface lg G M d p) data (List.repeat tt (length data)) hy m A ->
  exists ml : list nat -> R,
    (forall ids mu P h', spd P ->
       nw_set_proto (nnw_post hy (Z.of_nat (length ids)) (mstats_of (pickv data ids))) = Ok h' ->
       exp (nw_lpdf lg hy mu P) * prodR (List.map (fun j => exp (stan_mvn_prec_lpdf (List.nth j data 0) mu P)) ids) =
       ml ids * exp (nw_lpdf lg h' mu P)) /\
    forall u, List.In u (clusterings (length data)) ->
    sumR (List.map (fun s => posterior (fun al => ewens_pitman t e (sizes_of al)) ml s *
                        sweep_prob (@nnw_iface lg G M d p) xexp data (List.repeat tt (length data)) pick0 js (A s) u)
              (clusterings (length data)))
    = posterior (fun al => ewens_pitman t e (sizes_of al)) ml u.
Proof.
  move=> lg G M d p data pick0 A hy m t e js HG Hd HV Hm He0 He1 Ht Hn His HA.
  have {He0}He0 : Rle 0 e by exact/RleE. have {He1}He1 : Rlt e 1 by exact/RltE. have {Ht}Ht : Rlt (Ropp e) t by exact/RltE.
  exists (fun ids => exp (nw_log_marg lg hy (pickv data ids))). split.
  - move=> ids mu P h' HP. rewrite (cardZ_pick (fun j => List.nth j data 0)) -/(pickv data ids) => E.
    rewrite -exp_sum -!expD -(nnw_bayes lg mu HV HP E). by rewrite /pickv big_map.
  - move=> u Hu.
    apply: (@neal3_sweep_invariant (@nnw_iface lg G M d p) (nnw_laws lg M p HG) data (List.repeat tt (length data)) xexp t e _ pick0 js A hy m) => //.
    + exact: unit_rows.
    + move=> x y; exact: xexp_add.
    + exact: (elimT ssrnat.leP Hn).
    + by move=> i Hi; exact: (elimT ssrnat.ltP (His i Hi)).
    + exact: (real_masses lg G (NIGFixed 0 1 1 1) m (length data) t e Hm (Logic.conj He0 He1) Ht).
    + exact: nnw_marginal.
Qed.
Lemma lin_sweep_invariant : forall lg G M d (data : seq R) (xs : seq 'cV[R]_d) pick0
    (A : list nat -> alg (@lin_iface lg G M d)) hy m t e js,
  gen_ok G -> length xs = length data -> mnig_valid hy -> strength m = Some (t, e) -> 0 <= e -> e < 1 -> - e < t ->
  (2 <= length data)%N -> (forall i, List.In i js -> (i < length data)%N) ->
  represents (I := @lin_iface lg G M d) data (List.map Some xs) hy m A ->
  exists ml : list nat -> R,
    (forall ids th, 0 < lr_var th ->
       exp (mnig_lpdf lg hy th) * prodR (List.map (fun j => exp (lin_lpdf th (List.nth j data 0) (List.nth j xs 0))) ids) =
       ml ids * exp (mnig_lpdf lg (mnig_post hy (Z.of_nat (length ids)) (lin_stats_of (pickx data xs ids))) th)) /\
    forall u, List.In u (clusterings (length data)) ->
    sumR (List.map (fun s => posterior (fun al => ewens_pitman t e (sizes_of al)) ml s *
                        sweep_prob (@lin_iface lg G M d) xexp data (List.map Some xs) pick0 js (A s) u)
              (clusterings (length data)))
    = posterior (fun al => ewens_pitman t e (sizes_of al)) ml u.
Proof.
  move=> lg G M d data xs pick0 A hy m t e js HG EL HV Hm He0 He1 Ht Hn His HA.
  have {He0}He0 : Rle 0 e by exact/RleE. have {He1}He1 : Rlt e 1 by exact/RltE. have {Ht}Ht : Rlt (Ropp e) t by exact/RltE.
  exists (fun ids => exp (lin_log_marg lg hy (pickx data xs ids))). split.
  - move=> ids th Hth. rewrite (cardZ_pick (fun j => (List.nth j data 0, List.nth j xs 0))) -/(pickx data xs ids).
    rewrite -exp_sum -!expD -(lin_bayes lg (pickx data xs ids) HV Hth). by rewrite /pickx big_map.
  - move=> u Hu.
    apply: (@neal3_sweep_invariant (@lin_iface lg G M d) (@lin_laws lg G M d HG) data (List.map Some xs) xexp t e _ pick0 js A hy m) => //.
    + exact: lin_rows.
    + move=> x y; exact: xexp_add.
    + exact: (elimT ssrnat.leP Hn).
    + by move=> i Hi; exact: (elimT ssrnat.ltP (His i Hi)).
    + exact: (real_masses lg G (NIGFixed 0 1 1 1) m (length data) t e Hm (Logic.conj He0 He1) Ht).
    + exact: lin_marginal.
Qed.
