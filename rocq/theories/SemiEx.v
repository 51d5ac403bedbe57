(** * Semi-HDP: a small instance, concrete states, and refutations. *)
From Coq Require Import String.
From Coq Require Import Bool List Arith ZArith Reals Lia Lra Permutation.
From Verif Require Import Base XReal Semi SemiWp SemiSpec SemiCount SemiInv SemiInv2 SemiInv3 SemiInv4 SemiRelabel SemiUnique SemiInit SemiStep SemiTwice.
Import ListNotations.
Local Open Scope nat_scope.

(** Draws are read off a tape; atoms remember what they were drawn from. *)
Definition toy (c : nat) (cv : option Z) (u : R) (mg : R) : SH :=
  mkSH nat (bool * list nat) (list nat) c
    (fun g => ((false, [hd 0 g]), tl g)) (fun d g => ((true, d), tl g))
    (fun _ _ => Fin 0) (fun _ => Fin mg) (fun _ _ => 0%R)
    (fun l g => (Nat.min (hd 0 g) (length l - 1), tl g)) (fun l g => (Nat.min (hd 0 g) (length l - 1), tl g))
    (fun g => (u, tl g)) (fun _ _ g => (/ 2, g))%R (fun l g => (l, g)) (fun l _ g => (map (fun _ => 1%Z) l, g))
    (fun n g => (Nat.min (hd 0 g) (n - 1), tl g)) cv.

Lemma toy_ok : forall c cv u mg, gen_ok (toy c cv u mg).
Proof.
  intros. constructor; cbn [toy cat catp uint dirich multin fst].
  - intros l g H. destruct l; [congruence|]. cbn [length]. lia.
  - intros l g H. destruct l; [congruence|]. cbn [length]. lia.
  - intros. lia.
  - reflexivity.
  - intros. apply map_length.
Qed.

Definition toy1 : SH := toy 1 (Some 0%Z) 0 0.
Definition pars : params := mkParams 1 1 1 1 1 (/ 2) "full".

(** One group of two observations at one shared table; two shared atoms. *)
Definition data2 : list (list nat) := [[7; 8]].
Definition at_shared : sst toy1 :=
  mkS toy1 [(false, [1]); (false, [2])] [[0]] [[]] [0; 1] [[2%Z]] [[]] [[]] [[0; 0]] [0] [true] [1%R] [[Some 0]] [[None]] [1%Z; 0%Z] 0%R.

Ltac small := intros; repeat match goal with H : ?r < _ |- _ => first [lia | destruct r as [|r]; [clear H|cbn in H; try lia]] end.

Lemma at_shared_wf : wf toy1 data2 at_shared.
Proof.
  constructor; try reflexivity.
  - repeat constructor.
  - intros r Hr. assert (r = 0) as -> by (cbn in Hr; lia). constructor; try reflexivity; try (repeat constructor).
    + intros l Hl. assert (l = 0) as -> by (cbn in Hl; lia). cbn. lia.
    + intros l k Hl E. assert (l = 0) as -> by (cbn in Hl; lia). discriminate E.
  - intros i Hi. assert (i = 0) as -> by (cbn in Hi; lia). cbn. lia.
  - intros r Hr. assert (r = 0) as -> by (cbn in Hr; lia). cbn. tauto.
  - intros i Hi. assert (i = 0) as -> by (cbn in Hi; lia). split; [reflexivity|]. repeat constructor.
  - intros r Hr. assert (r = 0) as -> by (cbn in Hr; lia). cbn. lia.
  - intros r Hr. assert (r = 0) as -> by (cbn in Hr; lia). cbn. split; auto.
  - constructor.
    + intros [|[|r]]; constructor.
    + intros [|[|r]]; constructor.
    + repeat constructor; cbn; intuition lia.
    + intros r r' o [H|H]; destruct r as [|[|r]]; destruct H.
    + intros r o [H|H]; destruct r as [|[|r]]; destruct H.
Qed.

Lemma at_shared_coherent : shared_coherent toy1 data2 at_shared.
Proof.
  intros r l h Hr Hl E. assert (r = 0) as -> by (cbn in Hr; lia). assert (l = 0) as -> by (cbn in Hl; lia). injection E as <-. reflexivity.
Qed.

(** The table now serves shared atom 1 but still holds the object of atom 0. *)
Lemma to_shared_stale : exists s' g', wf toy1 data2 at_shared /\ shared_coherent toy1 data2 at_shared /\
  update_to_shared toy1 pars data2 at_shared [1] = Ok (s', g') /\ ~ shared_coherent toy1 data2 s'.
Proof.
  eexists. eexists. split; [apply at_shared_wf|]. split; [apply at_shared_coherent|]. split.
  - lazy -[Rplus Rminus Rmult Rdiv Rinv xlog IZR]. reflexivity.
  - intros H. specialize (H 0 0 1 ltac:(cbn; lia) ltac:(cbn; lia) eq_refl). discriminate H.
Qed.

(** Taking one of two observations off the table: the table is still there, but
    its shared atom has lost it in the counts. *)
Lemma leave_miscounts : exists s' ln lm, wf toy1 data2 at_shared /\ counts_exact toy1 data2 at_shared /\
  leave_table toy1 at_shared [[0%Z]] [0%Z; 0%Z] 0 0 0 = Ok (s', ln, lm) /\
  nth 0 (nth 0 (s_n toy1 s') []) 0%Z = 1%Z /\ s_ts toy1 s' = s_ts toy1 at_shared /\
  s_m toy1 s' <> tally 2 (dishes toy1 data2 s').
Proof.
  eexists. eexists. eexists. split; [apply at_shared_wf|]. split.
  { split; [|reflexivity]. intros r Hr. assert (r = 0) as -> by (cbn in Hr; lia). reflexivity. }
  split; [|split; [|split]].
  - unfold leave_table. cbn -[ilog]. unfold ilog. cbn [Z.ltb Z.compare Z.add Z.opp Z.pos_sub Pos.compare Pos.compare_cont]. cbn -[Int_part ln]. reflexivity.
  - reflexivity.
  - reflexivity.
  - intros H. vm_compute in H. discriminate H.
Qed.

Lemma leave_shared : forall I s logn logm i j r t h s1 logn1 logm1, at2 (s_tab I s) i j = Ok t -> at2 (s_ts I s) r t = Ok (Some h) ->
  leave_table I s logn logm i j r = Ok (s1, logn1, logm1) ->
  nth h (s_m I s1) 0%Z = (nth h (s_m I s) 0 - 1)%Z /\ ilog I (Z.of_nat h) = Ok (nth h logm1 0%Z) /\ s_ts I s1 = s_ts I s /\ s_tab I s1 = s_tab I s.
Proof.
  intros I s logn logm i j r t h s1 logn1 logm1 Et Eh E. unfold leave_table in E. rewrite Et in E. cbn [rbind] in E.
  destruct (add2 (s_n I s) r t (-1)) as [nn| | |]; try discriminate E. cbn [rbind] in E.
  destruct (at2 nn r t) as [nv| | |]; try discriminate E. cbn [rbind] in E.
  destruct (ilog I nv) as [lv| | |]; try discriminate E. cbn [rbind] in E.
  destruct (set2 logn r t lv) as [ln1| | |]; try discriminate E. cbn [rbind] in E. rewrite Eh in E. cbn [rbind] in E.
  unfold add1, at_, set_at in E. destruct (nth_error (s_m I s) h) as [x|] eqn:Ex; try discriminate E. cbn [rbind] in E.
  destruct (h <? length (s_m I s)) eqn:Hl; try discriminate E. cbn [rbind] in E.
  destruct (ilog I (Z.of_nat h)) as [lh| | |]; try discriminate E. cbn [rbind] in E.
  destruct (h <? length logm) eqn:Hm; try discriminate E. cbn [rbind] in E. injection E as <- <- <-.
  apply Nat.ltb_lt in Hl, Hm. cbn [w_m w_n s_m s_ts s_tab]. rewrite !nth_upd_same by auto. rewrite (nth_error_nth _ _ _ Ex). auto.
Qed.

(** ** Private or shared *)

(** Probability that a new table is private given its first observation:
    [w] against [1 - w], weighted by the marginals. *)
Definition private_prob (w m0 m1 : R) : R := (w * m0 / (w * m0 + (1 - w) * m1))%R.

(** Marginal of the shared part. *)
Definition shared_marg (hdp : list xreal) : R := fold_right Rplus 0%R (map xexp hdp).

Definition toy2 : SH := toy 1 (Some 0%Z) (5 / 8) (ln 3).
Definition half : sst toy2 :=
  mkS toy2 [] [[]] [[]] [] [[]] [[]] [[]] [[0]] [0] [true] [1%R] [[]] [[]] [] (/ 2)%R.

Lemma open_ignores_data : exists (d : nat) (hdp : list xreal) (g : list nat) s' ln lm g',
  (0 < shared_marg hdp)%R /\ (fst (unif toy2 g) < private_prob (s_w toy2 half) (xexp (marg toy2 d)) (shared_marg hdp))%R /\
  open_table toy2 half [[]] [] 0 d hdp g = Ok ((s', ln, lm), g') /\ s_tp toy2 s' = [[None]].
Proof.
  exists 0, [Fin 0], [0]. assert (N : ~ (5 / 8 < / 2)%R) by lra.
  assert (E3 : xexp (Fin (ln 3)) = 3%R) by (cbn; apply exp_ln; lra).
  assert (E1 : shared_marg [Fin 0] = 1%R) by (unfold shared_marg; cbn; rewrite exp_0; ring).
  eexists. eexists. eexists. eexists. rewrite E1. split; [lra|]. split; [|split].
  - cbn [toy2 toy unif fst marg half s_w]. rewrite E3. unfold private_prob. replace (/ 2 * 3 / (/ 2 * 3 + (1 - / 2) * 1))%R with (3 / 4)%R by field. lra.
  - unfold open_table. cbn -[Rlt_dec Rdiv Rinv]. destruct (Rlt_dec (5 / 8) (/ 2)); [contradiction|]. cbn. reflexivity.
  - reflexivity.
Qed.

(** ** The weight of an empty table in [reassign_group] *)
Lemma rlog_empty : forall n, (n <= 0)%Z -> (exp (rlog 1) < exp (rlog n))%R.
Proof.
  intros n Hn. unfold rlog. replace (0 <? n)%Z with false by (symmetry; apply Z.ltb_ge; exact Hn). cbn [Z.ltb Z.compare].
  apply exp_increasing. rewrite ln_1. apply Rinv_0_lt_compat. apply pow_lt. lra.
Qed.

(** ** Closed forms of the section lemmas, as the properties state them *)
Section Closed.
Variable I : SH.
Variable P : params.
Variable data : list (list (Datum I)).

Lemma five_ne : (forall d, In d data -> 5 <= length d) -> forall d, In d data -> d <> [].
Proof. intros H d Hd ->. specialize (H [] Hd). simpl in H. lia. Qed.

Lemma sweep_rows : forall z s g, cols I = 1 -> gen_ok I -> cvt I = Some z -> wf I data s ->
  exists s' g', update_table_allocs I P data s g = Ok (s', g') /\ wf I data s' /\
    (forall r, r < length data ->
       length (nth r (s_n I s') []) + length (nth r (s_priv I s) []) = length (nth r (s_rest I s') []) + length (nth r (s_priv I s') [])) /\
    (forall r l, r < length data -> l < length (nth r (s_rest I s') []) ->
       nth l (nth r (s_n I s') []) 1%Z = Z.of_nat (count_occ Nat.eq_dec (seated I data s' r) l)).
Proof.
  intros z s g Hc HG Hz H.
  destruct (ok_inv _ _ _ (ok_update_table_allocs I P data Hc HG z Hz s g (fun q => exists logn logm, tinv I data z (s_priv I s) s (fst q) logn logm) H ltac:(intros; cbn [fst]; eauto))) as ((s' & g') & E & ln & lm & T).
  cbn [fst] in T. exists s', g'. split; [exact E|]. split; [apply T|]. split; [apply T|].
  intros r l Hr Hl. rewrite (ti_ex _ _ _ _ _ _ _ _ T r l Hr), (proj2 (Nat.ltb_lt _ _) Hl). reflexivity.
Qed.

Lemma initialise_iff : forall g, cols I = 1 -> gen_ok I ->
  ((forall d, In d data -> 5 <= length d) ->
     exists s g', initialize I P data (fresh I) g = Ok (s, g') /\ opened I data (length data) s /\ wf I data s /\ shared_coherent I data s /\
       forall r, r < length data -> nth r (s_n I s) [] = tally 10 (seated I data s r)) /\
  ((exists d, In d data /\ length d < 5) -> initialize I P data (fresh I) g = UB).
Proof.
  intros g Hc HG. split.
  - intros H5. destruct (ok_inv _ _ _ (ok_initialize I P data HG g (fun q => iinv I data (length data) (fst q) /\ counted I data (fst q))
      ltac:(intros i Hi; rewrite Hc, Nat.mul_1_r; apply H5; apply nth_In; exact Hi) ltac:(intros; cbn [fst]; auto))) as ((s & g') & E & A & B).
    cbn [fst] in *. destruct (iinv_wf I data s Hc A B) as (W & Co & N). exists s, g'. split; [exact E|]. split; [apply A|]. do 2 (split; [assumption|]).
    intros r Hr. rewrite N by auto. destruct (opened_row I data s r (proj2 A) Hr) as [-> _]. reflexivity.
  - intros (d & Hd & Hs). destruct (In_nth _ _ [] Hd) as (i & Hi & E). apply initialize_short with (i := i); auto. rewrite Hc, Nat.mul_1_r, E. exact Hs.
Qed.

Lemma step_total : forall pseudo z adapt s g,
  cols I = 1 -> (forall d, In d data -> d <> []) -> data <> [] -> gen_ok I -> cvt I = Some z ->
  (adapt = false -> pseudo_ok I data pseudo) -> wf I data s ->
  exists s' g', step I P data pseudo adapt (s, g) = Ok (s', g') /\ wf I data s' /\ no_empty I data s' /\ counts_exact I data s'.
Proof.
  intros pseudo z adapt s g Hc Hd Hn HG Hz Hp H.
  destruct (ok_inv _ _ _ (ok_step I P data pseudo Hc Hd Hn HG z adapt s g (fun q => tidy I data (fst q)) Hz Hp H ltac:(intros; cbn [fst]; auto))) as ((s' & g') & E & T).
  exists s', g'. split; [exact E|apply T].
Qed.

Lemma run_total : forall pseudo (A : Type) (wr : St I -> res A) z adapt_iter burnin iter thin g,
  cols I = 1 -> data <> [] -> gen_ok I -> cvt I = Some z -> (forall x, exists a, wr x = Ok a) ->
  pseudo_ok I data pseudo -> 0 < thin -> (forall d, In d data -> 5 <= length d) ->
  exists outs s' g', run I P data pseudo wr adapt_iter burnin iter thin (fresh I) g = Ok (outs, (s', g')) /\ wf I data s' /\
    length outs = (if iter mod thin =? 0 then iter else 0) /\
    Forall (fun o => exists s, (wf I data s /\ no_empty I data s /\ counts_exact I data s) /\ get_state I data wr s = Ok o) outs.
Proof. intros. eapply ok_run; eauto. apply five_ne; auto. Qed.

Lemma get_state_total : forall (A : Type) (wr : St I -> res A) s, data <> [] ->
  (forall x, exists a, wr x = Ok a) -> wf I data s ->
  exists o, get_state I data wr s = Ok o /\ o_n A o = s_n I s /\ o_ts A o = s_ts I s /\ o_tp A o = s_tp I s /\ o_tab A o = s_tab I s /\
    o_c A o = s_ra I s /\ map (@length A) (o_stars A o) = map (@length nat) (s_rest I s) /\ length (o_taus A o) = length data * length (s_shared I s).
Proof.
  intros A wr s Hn Hw H.
  assert (X : ok (get_state I data wr s) (fun o => o_n A o = s_n I s /\ o_ts A o = s_ts I s /\ o_tp A o = s_tp I s /\ o_tab A o = s_tab I s /\
    o_c A o = s_ra I s /\ map (@length A) (o_stars A o) = map (@length nat) (s_rest I s) /\ length (o_taus A o) = length data * length (s_shared I s))).
  { apply ok_get_state; auto. intros. do 6 (split; [assumption|]). assumption. }
  destruct (ok_inv _ _ _ X) as (o & E & Q). exists o. auto.
Qed.

Lemma run_undefined : forall pseudo (A : Type) (wr : St I -> res A) adapt_iter burnin iter thin g,
  cols I = 1 -> data <> [] -> gen_ok I -> cvt I = None -> (forall d, In d data -> 5 <= length d) ->
  run I P data pseudo wr (S adapt_iter) burnin iter thin (fresh I) g = UB.
Proof.
  intros pseudo A wr a b i t g Hc Hn HG Hz H5. destruct pseudo as [|p0 pt]; [reflexivity|]. apply run_ub; auto. discriminate.
Qed.

Lemma to_shared_keeps : forall s g, cols I = 1 -> gen_ok I -> wf I data s ->
  exists s' g', update_to_shared I P data s g = Ok (s', g') /\ wf I data s' /\ s_rest I s' = s_rest I s /\
    s_m I s' = tally (length (s_shared I s')) (dishes I data s').
Proof.
  intros s g Hc HG H.
  destruct (ok_inv _ _ _ (ok_update_to_shared I P data Hc HG s g (fun q => wf I data (fst q) /\ m_exact I data (fst q) /\ same_seats I s (fst q)) H ltac:(intros; cbn [fst]; auto))) as ((s' & g') & E & W & M & S).
  exists s', g'. split; [exact E|]. split; [exact W|]. split; [apply S|exact M].
Qed.

Lemma unique_restores : forall s g, cols I = 1 -> wf I data s ->
  exists s' g', update_unique_vals I data s g = Ok (s', g') /\ wf I data s' /\ shared_coherent I data s'.
Proof.
  intros s g Hc H.
  destruct (ok_inv _ _ _ (ok_update_unique_vals I data Hc s g (fun q => wf I data (fst q) /\ shared_coherent I data (fst q)) H ltac:(intros; cbn [fst]; auto))) as ((s' & g') & E & W).
  exists s', g'. auto.
Qed.

Lemma atoms_given_data : forall s g, cols I = 1 -> wf I data s ->
  exists s' g', update_unique_vals I data s g = Ok (s', g') /\
  (forall r l, r < length data -> l < length (nth r (s_rest I s) []) ->
     exists x, nth_error (s_heap I s') (nth l (nth r (s_rest I s') []) 0) = Some x /\
       drawn I (match nth l (nth r (s_ts I s) []) None with Some h => served I data s h | None => held I data s r l end) x) /\
  (forall h, h < length (s_shared I s) ->
     exists x, nth_error (s_heap I s') (nth h (s_shared I s') 0) = Some x /\ drawn I (served I data s h) x).
Proof.
  intros s g Hc H. destruct (ok_inv _ _ _ (ok_update_unique_vals' I data Hc s g H)) as ((s' & g') & E & R).
  exists s', g'. split; [exact E|exact R].
Qed.

Lemma second_run : forall pseudo (A : Type) (wr : St I -> res A) adapt_iter burnin iter thin s g,
  cols I = 1 -> data <> [] -> (forall d, In d data -> d <> []) -> wf I data s ->
  run I P data pseudo wr adapt_iter burnin iter thin s g = UB.
Proof.
  intros pseudo A wr a b i t s g Hc Hn Hd H. apply run_again_ub; [apply (wf_rest _ _ _ H)|].
  assert (Hp : 0 < length data) by (destruct data; [congruence|simpl; lia]).
  exists (nth 0 (s_ra I s) 0). split; [apply (wf_ra _ _ _ H); auto|].
  assert (N : 0 < length (nth (nth 0 (s_ra I s) 0) (s_rest I s) [])) by (apply (occupied_nonempty I data Hc Hd s); auto; apply nth_In; rewrite (wf_ral _ _ _ H); auto).
  destruct (nth (nth 0 (s_ra I s) 0) (s_rest I s) []); [simpl in N; lia|discriminate].
Qed.

Lemma collecting : forall pseudo (A : Type) z adapt_iter burnin iter thin g,
  cols I = 1 -> data <> [] -> gen_ok I -> cvt I = Some z -> pseudo_ok I data pseudo -> (forall d, In d data -> 5 <= length d) ->
  0 < iter -> iter mod thin = 0 ->
  run I P data pseudo (@write_clusval I A) adapt_iter burnin iter thin (fresh I) g = UB.
Proof. intros. eapply run_collect_ub; eauto. apply five_ne; auto. Qed.

Lemma frozen : forall s g, cols I = 1 -> wf I data s ->
  p_mode P <> "full"%string -> p_mode P <> "metro_base"%string -> p_mode P <> "metro_dist"%string ->
  exists g', update_rest_allocs I P data s g = Ok (s, g').
Proof. intros. apply rest_allocs_frozen; auto. Qed.

End Closed.

Lemma ilog_wrong : exists (I : SH) (n k : Z), (0 < n)%Z /\ ilog I n = Ok k /\ exp (IZR k) <> IZR n.
Proof. exists toy1, 2%Z, 0%Z. split; [lia|]. split; [apply ilog_2|]. rewrite exp_0. lra. Qed.

Lemma to_shared_breaks : exists (s s' : sst toy1) g g', wf toy1 data2 s /\ shared_coherent toy1 data2 s /\
  update_to_shared toy1 pars data2 s g = Ok (s', g') /\ ~ shared_coherent toy1 data2 s'.
Proof. destruct to_shared_stale as (s' & g' & A & B & C & D). exists at_shared, s', [1], g'. auto. Qed.
