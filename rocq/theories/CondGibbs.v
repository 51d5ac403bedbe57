(** * What one iteration of the blocked Gibbs algorithm draws. *)
From Coq Require Import String.
From Coq Require Import Bool List Arith ZArith Reals Lra Lia.
From Verif Require Import Base Hier Algos Run Spec MargFacts NealFacts MargMore InitFacts MargProps ValidRun.
From Verif Require Import PartSpec XReal Stick SliceFacts StickFacts Cond CondFacts CondProps CondDraws UnivInst UnivRun CondInst CondRun CondStick.
Import ListNotations.

Section Iteration.
  Variable I : Iface.
  Variable L : laws I.
  Variable toW : xreal -> W I.
  Variable data : list (Datum I).
  Variable covs : list (Cov I).
  Local Notation n := (length data).
  Hypothesis Hrows : rows_ok I data (at_ covs).
  Variable bet : R -> R -> Rng I -> R * Rng I.
  Hypothesis Hb : beta_ok bet.
  Hypothesis Hod : other_draw I = None.
  Local Notation J := (sb_iface I toW bet).
  Variable hy0 : Hyp I.
  Variable p : sbprior numR.
  Variable inf : bool.
  Variable nc : nat.
  Variable m : sb numR.
  Hypothesis Hm : sb_init p inf nc = Ok m.
  Hypothesis Hp : proper_shapes p.
  Hypothesis Hnc : 1 <= nc <= n.
  Variable pos : nat -> nat.
  Hypothesis Hpos : forall i, pos i < nc.
  Variable st : St I.
  Local Notation LJ := (with_mixing_laws I _ (fun m _ => map toW (sb_logweights m)) (fun m cards _ r => sb_update (K:=numR) bet m cards r) L).
  Local Notation init r := (@init_clusters J data covs false hy0 m nc pos [mkHier J [] 0%Z (stats0 I) st false None] r).
  Local Notation step := (base_step (@blocked_sample_allocations J data covs nc) false).
  Local Notation good a := (@CInv J data covs a /\ length (a_uv a) = nc /\ sb_start p inf nc (a_mix a) /\ @only0 J hy0 (a_uv a)).

  Lemma lw_ok : forall x : Mix J, sb_start p inf nc x -> logweights_ok J data x nc.
  Proof. intros x Hx i _. change (length (map toW (sb_logweights x)) = nc). rewrite map_length. apply (start_logweights _ _ _ _ Hx). Qed.
  Lemma up_ok : forall (x : Mix J) cards al q, sb_start p inf nc x -> length cards = nc -> Forall (fun z => (0 <= z)%Z) cards ->
    exists x' q', mix_update J x cards al q = Ok (x', q') /\ sb_start p inf nc x' /\ sb_end inf nc x'.
  Proof.
    intros x cards al q Hx Hl F. pose proof (init_good _ _ _ _ Hm Hp) as G.
    replace cards with (map Z.of_nat (map Z.to_nat cards)).
    - apply (sb_update_good I data ltac:(lia) bet Hb p inf nc x (map Z.to_nat cards) q Hx G); [lia|]. now rewrite map_length.
    - rewrite map_map. clear -F. induction F as [|z l Hz F IH]; cbn; [reflexivity|]. rewrite IH, Z2Nat.id; auto.
  Qed.

  (** The blocks drawn by an iteration. *)
  Lemma iteration : forall (a a' : alg J) r r', good a -> step (a, r) = Ok (a', r') ->
    good a' /\ sb_end inf nc (a_mix a') /\ length (a_alloc a') = n /\ Forall (fun c => c < nc) (a_alloc a') /\
    (forall c h, nth_error (a_uv a') c = Some h -> (forall i, In i (h_ids h) <-> nth_error (a_alloc a') i = Some c)) /\
    exists r1 r2 ns,
      draws J (vecs J data covs (blocked_vec J (mix_logweights J (a_mix a)) (map (@h_state J) (a_uv a)))) (a_alloc a') r r1 /\
      ns = map (fun h => length (h_ids h)) (a_uv a') /\
      (forall c h, nth_error (a_uv a') c = Some h -> exists s q0 q1, nth_error (map (@h_state J) (a_uv a)) c = Some s /\
         prior_sample I (if length (h_ids h) =? 0 then a_hyp a
                         else if conj I && (c =? 0) then hy0
                         else post I (a_hyp a) (Z.of_nat (length (h_ids h))) (batch I data (at_ covs) (h_ids h)) s) q0 = (h_state h, q1)) /\
      (exists sh vs, prior_shapes (a_mix a) = Ok sh /\ length sh = nc /\ length (vs : list R) = nc /\ @drawn (Rng I) bet (shapes_after sh ns) vs r2 r' /\
         sb_sticks (a_mix a') = (if inf then vs else upd vs (nc - 1) 1%R)) /\
      exists q, a_hyp a' = fst (hyp_update I (a_hyp a) (map (fun h => (h_state h, h_card h)) (filter (fun h => Z.ltb 0 (h_card h)) (a_uv a'))) q).
  Proof.
    intros a a' r r' (HC & Hl & Hs & H0) E.
    pose proof (@only0_blocked_base J data covs hy0 nc a a' r r' E H0) as O'.
    unfold base_step in E.
    destruct (@blocked_sweep_ok J LJ data covs Hrows nc a r HC ltac:(lia) Hl (lw_ok _ Hs)) as (a1 & r1 & E1 & C1 & L1 & Hy1 & Mx1 & St1).
    assert (HCi := HC). apply (@CInv_iff J data covs) in HCi. destruct HCi as [Hcons Hcaches].
    pose proof (@blocked_draws J LJ data covs Hrows nc a a1 r r1 ltac:(lia) Hl (lw_ok _ Hs) Hcons Hcaches E1) as D1.
    assert (O1 : @only0 J hy0 (a_uv a1)).
    { change (@only0 J hy0 (a_uv (fst (a1, r1)))). eapply rfold_pres with (P := fun s : alg J * Rng J => @only0 J hy0 (a_uv (fst s))); [|exact E1|exact H0].
      intros x [d rd] [d' rd'] Hd. cbn [fst]. unfold blocked_step in Hd. apply rbind_ok in Hd. destruct Hd as (ws & _ & Hd). apply rbind_ok in Hd. destruct Hd as ([c q] & _ & Hd).
      apply rbind_ok in Hd. destruct Hd as (d1 & Hd1 & Hd). injection Hd as <- <-. intro K. eapply (@only0_move J data covs); eauto. }
    rewrite E1 in E. cbn [rbind] in E.
    destruct (@CInv_suv J LJ data covs a1 r1 C1) as (a2 & r2 & E2 & C2 & Al2 & Hy2 & Mx2 & _ & Ids2).
    rewrite E2 in E. cbn [rbind] in E.
    assert (Huv : a2 = set_uv a1 (a_uv a2)).
    { unfold sample_unique_values in E2. apply rbind_ok in E2. destruct E2 as ([uv q] & _ & E2). injection E2 as <- <-. reflexivity. }
    assert (E2' := E2). rewrite Huv in E2'.
    pose proof (@cond_redraw_core J data covs hy0 a1 r1 (a_uv a2) r2 Hod C1 O1 E2') as RD.
    apply rbind_ok in E. destruct E as ([a3 r3] & E3 & E4). unfold update_hierarchy_hypers in E3. apply rbind_ok in E3. destruct E3 as (h0 & _ & E3).
    destruct (hyp_update J (a_hyp a2) (map (fun h => (h_state h, h_card h)) (filter (fun h => Z.ltb 0 (h_card h)) (a_uv a2))) r2) as [hy r3'] eqn:EH. injection E3 as <- <-.
    unfold update_mixing in E4. apply rbind_ok in E4. destruct E4 as ([m' r4] & E4 & E5). injection E5 as <- <-.
    change (a_uv (set_hyp a2 hy)) with (a_uv a2) in *. change (a_alloc (set_hyp a2 hy)) with (a_alloc a2) in *.
    assert (Lu : length (a_uv a2) = nc). { rewrite <- L1. rewrite <- (map_length (@h_ids J) (a_uv a1)), <- Ids2, map_length. reflexivity. }
    pose proof C2 as [X1 [X2 X3]].
    assert (Ec : map (@h_card J) (a_uv a2) = map Z.of_nat (map (fun h => length (h_ids h)) (a_uv a2))).
    { rewrite map_map. apply map_ext_in. intros h Hh. apply In_nth_error in Hh. destruct Hh as (c & Hc). destruct (X3 c h Hc) as (([_ [K _]] & _) & _). exact K. }
    assert (Em : a_mix (set_hyp a2 hy) = a_mix a) by (cbn; congruence). rewrite Em, Ec in E4.
    assert (Hns : length (map (fun h : hier J => length (h_ids h)) (a_uv a2)) = nc) by (now rewrite map_length).
    destruct (up_ok (a_mix a) (map Z.of_nat (map (fun h => length (h_ids h)) (a_uv a2))) (a_alloc a2) r3' Hs) as (mm & rr & Eu & U1 & U2).
    { now rewrite map_length. }
    { apply Forall_forall. intros z Hz. apply in_map_iff in Hz. destruct Hz as (k & <- & _). lia. }
    rewrite Eu in E4. injection E4 as -> ->.
    split.
    { split; [|split; [exact Lu|split; [exact U1|exact O']]]. split; [exact X1|split; [exact X2|]]. simpl. intros c h Hc. destruct (X3 c h Hc) as ([K F] & Ph & Q). split; [split; [auto|discriminate]|auto]. }
    split; [exact U2|]. split; [exact X1|]. split.
    { apply Forall_forall. intros c Hc. apply In_nth_error in Hc. destruct Hc as (i & Hi). destruct (X2 i c Hi) as [_ K]. rewrite Lu in K. exact K. }
    split.
    { intros c h Hc i. destruct (X3 c h Hc) as (([_ [_ K]] & _) & _). apply (@CInv_iff J data covs) in C2. destruct C2 as [(_ & _ & Q) _].
      destruct (Q c (h_ids h) (h_card h)) as (_ & Q2 & _); [apply nth_view; exists h; auto|]. apply Q2. }
    exists r1, r3', (map (fun h => length (h_ids h)) (a_uv a2)). split; [rewrite <- Al2 in D1; exact D1|]. split; [reflexivity|]. split.
    { intros c h Hc. change (nth_error (a_uv a2) c = Some h) in Hc.
      assert (Hc1 : c < length (a_uv a1)) by (rewrite L1, <- Lu; apply nth_error_Some; congruence).
      destruct (nth_error (a_uv a1) c) as [g|] eqn:Hg; [|apply nth_error_None in Hg; lia].
      destruct (RD c g h Hg Hc) as (q0 & q1 & Hq).
      assert (Hids : h_ids g = h_ids h).
      { pose proof (map_nth_error (@h_ids J) c (a_uv a1) Hg) as Y1. rewrite <- Ids2 in Y1. rewrite (map_nth_error (@h_ids J) c (a_uv a2) Hc) in Y1. now injection Y1. }
      exists (h_state g), q0, q1. split; [rewrite <- St1; exact (map_nth_error (@h_state J) c (a_uv a1) Hg)|].
      rewrite Hids, Hy1 in Hq. exact Hq. }
    split.
    { destruct Hs as (S1 & S2 & S3 & S4).
      destruct (@sb_update_spec (Rng I) bet (a_mix a) (map (fun h => length (h_ids h)) (a_uv a2)) r3' m' r4 S1) as (sh & vs & B1 & B2 & B3 & B4 & B5 & _); [rewrite S4; lia|rewrite S4; exact Hns|exact Eu|].
      exists sh, vs. unfold prior_shapes. rewrite S3, S4 in *. auto. }
    exists r2. cbn [a_hyp set_mix set_hyp]. change (hyp_update I) with (hyp_update J). rewrite <- Hy1, <- Hy2. cbn [a_uv set_mix set_hyp]. rewrite EH. reflexivity.
  Qed.

  Lemma program_good : forall k r a r', (s0 <- init r ;; iter step k s0) = Ok (a, r') -> good a.
  Proof.
    intros k r a r' E.
    destruct (@blocked_init J LJ data covs Hrows hy0 m nc pos (mkHier J [] 0%Z (stats0 I) st false None) r Hnc Hpos eq_refl) as (a0 & r0 & E0 & Hc0 & Hk0 & Hl0 & Em0).
    assert (O0 : @only0 J hy0 (a_uv a0)) by (exact (@only0_init J data covs hy0 m nc pos (mkHier J [] 0%Z (stats0 I) st false None) r a0 r0 eq_refl E0)).
    rewrite E0 in E. cbn [rbind] in E.
    assert (G0 : good a0).
    { split; [apply CInv_iff; auto|]. split; [exact Hl0|]. split; [|exact O0]. rewrite Em0. destruct (sb_init_spec _ _ _ Hm) as (A & B & C & D & _). split; auto. }
    clear E0 Hc0 Hk0 Hl0 Em0 O0. revert a0 r0 G0 E. induction k as [|k IH]; intros a0 r0 G0 E; cbn [iter] in E.
    - injection E as <- <-. exact G0.
    - apply rbind_ok in E. destruct E as ([a1 r1] & E1 & E). apply (IH a1 r1); [|exact E]. now apply (iteration _ _ _ _ G0 E1).
  Qed.
End Iteration.
