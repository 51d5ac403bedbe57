(** * Parameter spaces of the multivariate and regression hierarchies. *)
From Coq Require Import ZArith Reals Lra Lia.
From Coq Require List.
From mathcomp Require Import all_ssreflect all_algebra.
From mathcomp.algebra_tactics Require Import ring.
From Verif Require Import Base Hier Algos Run Spec MargFacts NealFacts MargMore ValidRun.
From Verif Require Import XReal Mixings Univ RealInst RealFacts RealField MatLib Multi MultiFacts NnwFacts LinFacts NwHyper MultiInst MultiReal.
From Verif Require Import UnivInst UnivRun P_MultiInt.
Set Implicit Arguments.
Unset Strict Implicit.
Unset Printing Implicit Defensive.
Import Order.TTheory GRing.Theory Num.Theory.
Local Open Scope ring_scope.

(** Generators of positive definite matrices return positive definite matrices,
    for the parameters accepted by Stan (wishart_rng, inv_wishart_rng). *)
Definition mgen_pos (G : gen) (M : mgen G) : Prop :=
  (forall d (nu : R) (S : 'M[R]_d) r, d%:R - 1 < nu -> spd S -> spd (g_wishart M nu S r).1) /\
  (forall d (nu : R) (S : 'M[R]_d) r, d%:R - 1 < nu -> spd S -> spd (g_inv_wishart M nu S r).1).

(** The hyperprior parameters of an accepted prior. *)
Definition nw_prior_valid d (p : nw_prior d) : Prop :=
  match p with
  | NWFixed _ _ _ _ => True
  | NWMean _ sigma00 _ _ _ => spd sigma00
  | NWNgiw _ sigma00 a b nu tau _ => [/\ spd sigma00, 0 < a, 0 < b, 0 < nu & spd tau]
  | NWOther => False
  end.
Lemma nw_prior_checked : forall d (p : nw_prior d) h, nw_init p = Ok h -> nw_prior_valid p.
Proof.
  move=> d [mean vs df scale|mu00 sigma00 vs df scale|mu00 sigma00 a b nu00 tau00 nu0|] h //=.
  - by case E0: (check_spd sigma00) => [[]|m||] //= _; move/check_spd_ok: E0 => [_ HS].
  - case E0: (check_spd sigma00) => [[]|m||] //=. case E1: (lteb a 0) => //. case E2: (lteb b 0) => //.
    case E3: (lteb nu00 0) => //. case E4: (check_spd tau00) => [[]|m||] //= _.
    move/check_spd_ok: E0 => [_ HS]. move/check_spd_ok: E4 => [_ HT]. by split=> //; exact: lteb_false0.
Qed.

Lemma written_spd : forall d (s : mls d), written s -> spd (ml_prec s).
Proof. by move=> d s [m [P [HP [->| ->]]]]. Qed.
Lemma written_states : forall d (l : seq (mls d)), (forall s, List.In s l -> written s) -> states_spd l.
Proof.
  move=> d; elim=> [|s l IH] H; first by move=> x.
  apply/states_spd_cons; split; first by apply: written_spd; apply: H; left.
  by apply: IH => x Hx; apply: H; right.
Qed.

(** The update of the hyperparameters: it does not fail and stays in the space. *)
Lemma nw_update_ok : forall G (M : mgen G) d (p : nw_prior d) h l r, (0 < d)%N -> gen_pos G -> mgen_pos M -> nw_prior_valid p -> nw_valid h ->
  (forall s, List.In s l -> written s) -> l <> nil -> exists h' r', nw_update_hypers M p h l r = Ok (h', r') /\ nw_valid h'.
Proof.
  move=> G M d p h l r D [HG _] [_ HI] HP HV Hl Hn. have Hs := written_states Hl. case: (HV) => Hk [Hd [HS [HI' HC]]].
  case: p HP => [mean vs df scale|mu00 sigma00 vs df scale|mu00 sigma00 a b nu tau nu0|] //= HP.
  - by exists h, r.
  - have -> : inverse_spd sigma00 = Ok (invmx sigma00) by apply/inverse_spd_ok. rewrite /=.
    case: (g_mvn_prec _ _ _) => mean r1. by eexists; eexists; split; first by [].
  - case: HP => H0 Ha Hb Hnu Ht. have -> : inverse_spd sigma00 = Ok (invmx sigma00) by apply/inverse_spd_ok. rewrite /=.
    have [Hp _] := nw_mean_exact mu00 H0 Hk Hs.
    have Hp' : spd (nw_vs h *: foldl (fun a s => a + ml_prec s) 0 l + invmx sigma00) by exact: Hp.
    have -> : inverse_spd (nw_vs h *: foldl (fun a s => a + ml_prec s) 0 l + invmx sigma00) =
              Ok (invmx (nw_vs h *: foldl (fun a s => a + ml_prec s) 0 l + invmx sigma00)) by apply/inverse_spd_ok. rewrite /=.
    case: (g_mvn _ _ _) => mean r1.
    have Q : 0 <= foldl (fun a s => a + quad (ml_prec s) (nw_mean h - ml_mean s)) 0 l.
    { rewrite foldl_addr. elim: l Hl Hs {Hn Hp Hp'} => [|s l IH] Hl Hs; first by rewrite big_nil.
      rewrite big_cons addr_ge0 //; last by apply: IH => [x Hx|]; [apply: Hl; right|exact: (proj2 (proj1 (states_spd_cons _ _) Hs))].
      exact: (proj2 (spd_psd (proj1 (proj1 (states_spd_cons _ _) Hs)))). }
    have Hvs := HG (a + hf * (size l)%:R) (b + hf * foldl (fun a s => a + quad (ml_prec s) (nw_mean h - ml_mean s)) 0 l) r1.
    case: (g_gamma G _ _ r1) Hvs => vs r2 /= Hvs.
    have Htau : spd (foldl (fun a s => a + ml_prec s) 0 l + tau).
    { rewrite foldl_addr addrC. apply: spd_add => //. exact: sum_prec_psd. }
    have H0d : 0 <= nw_df h.
    { apply: ltW. apply: le_lt_trans Hd. by rewrite subr_ge0 ler1n. }
    have Hdf : d%:R - 1 < nu + (size l)%:R * nw_df h.
    { apply: (lt_le_trans Hd). apply: (@le_trans _ _ ((size l)%:R * nw_df h)); last by rewrite ler_addr ltW.
      rewrite ler_pemull //. case: l Hn {Hl Hs Hp Hp' Q Hvs Htau} => // s l _. by rewrite ler1n. }
    have := HI d _ _ r2 Hdf Htau. case: (g_inv_wishart _ _ _) => sc r3 /= Hsc.
    have -> : inverse_spd sc = Ok (invmx sc) by apply/inverse_spd_ok. rewrite /=.
    have H2 : 0 <= hf :> R by rewrite ltW // invr_gt0 ltr0n.
    eexists; eexists; split; first by []. split=> //=. apply/RltE. apply: Hvs; apply/RltE.
    + apply: ltr_paddr => //. by rewrite mulr_ge0 // ler0n.
    + apply: ltr_paddr => //. by rewrite mulr_ge0 // ler0n.
Qed.
(** With an empty list of states the fields are still in their spaces whenever
    the update ends. *)
Lemma nw_update_keeps : forall G (M : mgen G) d (p : nw_prior d) h l r h' r', gen_pos G -> nw_prior_valid p -> nw_valid h ->
  (forall s, List.In s l -> written s) -> nw_update_hypers M p h l r = Ok (h', r') -> nw_valid h'.
Proof.
  move=> G M d p h l r h' r' [HG _] HP HV Hl. have Hs := written_states Hl. case: (HV) => Hk [Hd [HS [HI' HC]]].
  case: p HP => [mean vs df scale|mu00 sigma00 vs df scale|mu00 sigma00 a b nu tau nu0|] //= HP.
  - by case=> <-.
  - case: (inverse_spd sigma00) => [inv|m||] //=. case: (g_mvn_prec _ _ _) => mean r1 [<- _]. by [].
  - case: HP => H0 Ha Hb Hnu Ht. case: (inverse_spd sigma00) => [inv|m||] //=. case: (inverse_spd _) => [sg|m||] //=.
    case: (g_mvn _ _ _) => mean r1.
    have Q : 0 <= foldl (fun a s => a + quad (ml_prec s) (nw_mean h - ml_mean s)) 0 l.
    { rewrite foldl_addr. elim: l Hl Hs => [|s l IH] Hl Hs; first by rewrite big_nil.
      rewrite big_cons addr_ge0 //; last by apply: IH => [x Hx|]; [apply: Hl; right|exact: (proj2 (proj1 (states_spd_cons _ _) Hs))].
      exact: (proj2 (spd_psd (proj1 (proj1 (states_spd_cons _ _) Hs)))). }
    have Hvs := HG (a + hf * (size l)%:R) (b + hf * foldl (fun a s => a + quad (ml_prec s) (nw_mean h - ml_mean s)) 0 l) r1.
    case: (g_gamma G _ _ r1) Hvs => vs r2 /= Hvs.
    case: (g_inv_wishart _ _ _) => sc r3. case E: (inverse_spd sc) => [B|m||] //= -[<- _].
    move/inverse_spd_ok: E => [HSc ->]. have H2 : 0 <= hf :> R by rewrite ltW // invr_gt0 ltr0n.
    split=> //=. apply/RltE. apply: Hvs; apply/RltE; apply: ltr_paddr => //; by rewrite mulr_ge0 // ler0n.
Qed.

Lemma nnw_closed : forall lg G M d (p : nw_prior d) (data : seq 'cV[R]_d), gen_pos G -> mgen_pos M -> nw_prior_valid p -> (0 < d)%N ->
  closed (@nnw_iface lg G M d p) data (List.repeat tt (length data)) (@nw_valid d) (@written d) mixing_valid.
Proof.
  move=> lg G M d p data HG HM Hp D. constructor.
  - move=> hy ids s Hh _ Hi. rewrite nnw_batch; last by move=> j Hj; rewrite List.repeat_length; split; exact: Hi.
    rewrite /= (cardZ_pick (fun j => List.nth j data 0)). have [h' [E V]] := nnw_post_valid (pickv data ids) Hh.
    by rewrite (nw_of_proto_set Hh E).
  - move=> hy r [Hk [Hd [HS _]]] /=. rewrite /nw_sample. have := proj1 HM d _ _ r Hd HS.
    case: (g_wishart _ _ _) => P r1 /= HP. case: (g_mvn_prec _ _ _) => m r2 /=. exists m, P. by split; [|right].
  - move=> hy [Hk _] /=. exists (nw_mean hy), (nw_vs hy)%:M. split; [|by right]. rewrite -scalemx1. exact: spd_scale (@spd1 _ _).
  - by [].
  - move=> hy sts r Hh Hs /=. rewrite /keep. case E: (nw_update_hypers _ _ _ _ _) => [[h' r']|m||] //=.
    apply: (nw_update_keeps HG Hp Hh _ E) => s. rewrite -mapE => /List.in_map_iff [q [<- Hq]]. exact: Hs.
  - move=> m cards al r m' r' Hm _ _ E. exact: (mixing_update_valid G m cards al r m' r' HG Hm E).
Qed.
Lemma lin_closed : forall lg G M d (data : seq R) (xs : seq 'cV[R]_d), gen_pos G -> length xs = length data ->
  closed (@lin_iface lg G M d) data (List.map Some xs) (@mnig_valid d) (fun s => 0 < lr_var s) mixing_valid.
Proof.
  move=> lg G M d data xs HG EL. constructor.
  - move=> hy ids s Hh _ Hi. rewrite lin_batch; last by move=> j Hj; rewrite EL; split; exact: Hi.
    rewrite /= (cardZ_pick (fun j => (List.nth j data 0, List.nth j xs 0))). exact: mnig_post_valid.
  - move=> hy r [_ [Ha Hb]] /=. rewrite /mnig_sample. have := proj2 HG (mg_shape hy) (mg_scale hy) r.
    case: (g_invgamma _ _ _ _) => v r1 /= Hv. case: (g_mvn_prec _ _ _) => m r2 /=. apply/RltE. apply: Hv; exact/RltE.
  - move=> hy [_ [Ha Hb]] /=. apply: divr_gt0 => //. exact: addr_gt0 Ha ltr01.
  - by [].
  - by [].
  - move=> m cards al r m' r' Hm _ _ E. exact: (mixing_update_valid G m cards al r m' r' HG Hm E).
Qed.
