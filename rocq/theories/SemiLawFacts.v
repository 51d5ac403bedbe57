(** * Semi-HDP: the draws of an iteration. *)
From Coq Require Import String.
From Coq Require Import Bool List Arith ZArith Reals Lia Lra Permutation.
From Verif Require Import Base XReal Semi SemiWp SemiSpec SemiCount SemiInv SemiInv2 SemiInv3 SemiInv4 SemiLaw.
Import ListNotations.
Local Open Scope nat_scope.

(** ** What holds of a value if there is one *)
Definition pw {A} (m : res A) (Q : A -> Prop) : Prop := match m with Ok a => Q a | _ => True end.

Lemma pw_bind : forall A B (m : res A) (k : A -> res B) Q, pw m (fun a => pw (k a) Q) -> pw (rbind m k) Q.
Proof. intros A B [a| | |] k Q H; exact H. Qed.
Lemma pw_mono : forall A (m : res A) (Q Q' : A -> Prop), pw m Q -> (forall a, Q a -> Q' a) -> pw m Q'.
Proof. intros A [a| | |] Q Q' H I; cbn in *; auto. Qed.
Lemma pw_any : forall A (m : res A) (Q : A -> Prop), (forall a, m = Ok a -> Q a) -> pw m Q.
Proof. intros A [a| | |] Q H; cbn; auto. Qed.
Lemma pw_ok : forall A (m : res A) (Q : A -> Prop) a, pw m Q -> m = Ok a -> Q a.
Proof. intros A m Q a H ->. exact H. Qed.
Ltac by_pw := match goal with |- ?m = Ok ?y -> ?Q => let f := eval pattern y in Q in match f with ?g _ => refine (fun E => pw_ok _ m g y _ E) end end.
Lemma pw_at : forall A (d : A) l i (Q : A -> Prop), (i < length l -> nth_error l i = Some (nth i l d) -> Q (nth i l d)) -> pw (at_ l i) Q.
Proof.
  intros A d l i Q H. unfold at_. destruct (nth_error l i) as [x|] eqn:E; cbn; auto.
  pose proof (nth_error_nth _ _ d E) as X. rewrite <- X. apply H; [apply nth_error_Some; congruence|congruence].
Qed.
Lemma pw_nth : forall A (l : list A) i (Q : A -> Prop), (forall x, nth_error l i = Some x -> Q x) -> pw (at_ l i) Q.
Proof. intros A l i Q H. unfold at_. destruct (nth_error l i) as [x|] eqn:E; cbn; auto. Qed.
Lemma pw_set : forall A (l : list A) i x (Q : list A -> Prop), (i < length l -> Q (upd l i x)) -> pw (set_at l i x) Q.
Proof. intros A l i x Q H. unfold set_at. destruct (i <? length l) eqn:E; cbn; auto. apply H. apply Nat.ltb_lt. auto. Qed.
Lemma pw_at2 : forall A (d : A) l i j (Q : A -> Prop), (i < length l -> j < length (nth i l []) -> Q (nth j (nth i l []) d)) -> pw (at2 l i j) Q.
Proof. intros A d l i j Q H. unfold at2. apply pw_bind. apply pw_at with (d := []). intros H1 _. apply pw_at with (d := d). auto. Qed.
Lemma pw_set2 : forall A l i j (v : A) (Q : list (list A) -> Prop),
  (i < length l -> j < length (nth i l []) -> Q (upd l i (upd (nth i l []) j v))) -> pw (set2 l i j v) Q.
Proof. intros A l i j v Q H. unfold set2. apply pw_bind. apply pw_at with (d := []). intros H1 _. apply pw_bind. apply pw_set. intros H2. apply pw_set. auto. Qed.
Lemma pw_push2 : forall A l i (v : A) (Q : list (list A) -> Prop), (i < length l -> Q (upd l i (nth i l [] ++ [v]))) -> pw (push2 l i v) Q.
Proof. intros A l i v Q H. unfold push2. apply pw_bind. apply pw_at with (d := []). intros H1 _. apply pw_set. auto. Qed.
Lemma pw_add1 : forall l i k (Q : list Z -> Prop), (i < length l -> Q (upd l i (nth i l 0%Z + k)%Z)) -> pw (add1 l i k) Q.
Proof. intros l i k Q H. unfold add1. apply pw_bind. apply pw_at with (d := 0%Z). intros H1 _. apply pw_set. auto. Qed.
Lemma pw_add2 : forall l i j k (Q : list (list Z) -> Prop),
  (i < length l -> j < length (nth i l []) -> Q (upd l i (upd (nth i l []) j (nth j (nth i l []) 0 + k)%Z))) -> pw (add2 l i j k) Q.
Proof.
  intros l i j k Q H. unfold add2. apply pw_bind. apply pw_at with (d := []). intros H1 _. apply pw_bind. apply pw_add1. intros H2. apply pw_set. auto.
Qed.

Lemma pw_rfold : forall A B (f : B -> A -> res B) l (Inv : B -> Prop) b,
  Inv b -> (forall b x, In x l -> Inv b -> pw (f b x) Inv) -> pw (rfold f l b) Inv.
Proof.
  intros A B f l Inv. induction l as [|x l IH]; intros b H0 Hs; cbn [rfold]; [exact H0|].
  apply pw_bind. eapply pw_mono; [apply Hs; [left; auto|exact H0]|]. intros b' H1. apply IH; auto. intros; apply Hs; auto. right; auto.
Qed.

Lemma pw_rmap : forall A B (f : A -> res B) l (Q : list B -> Prop),
  (forall ys, Forall2 (fun x y => f x = Ok y) l ys -> Q ys) -> pw (rmap f l) Q.
Proof.
  intros A B f l. induction l as [|x l IH]; intros Q H; cbn [rmap].
  - apply H. constructor.
  - apply pw_bind. apply pw_any. intros y Ey. apply pw_bind. apply IH. intros ys F. cbn. apply H. constructor; auto.
Qed.

Lemma rmap_map : forall A B C (f : A -> res B) (h : B -> C) (k : A -> C) l ys,
  Forall2 (fun x y => f x = Ok y) l ys -> (forall x y, In x l -> f x = Ok y -> h y = k x) -> map h ys = map k l.
Proof.
  intros A B C f h k l ys F. induction F as [|x y l ys E F IH]; intros H; cbn; auto.
  f_equal; [apply H; [left|]; auto|]. apply IH. intros; apply H; auto. right; auto.
Qed.

(** ** Exponentials of log-weights *)
Lemma rsum_nonneg : forall l, Forall (fun x => 0 <= x)%R l -> (0 <= rsum l)%R.
Proof. unfold rsum. induction 1; cbn [fold_right]; lra. Qed.

Lemma xexp_xlse : forall l, xexp (xlse l) = rsum (map xexp l).
Proof.
  intros l. unfold xlse. rewrite xexp_log; auto. apply (rsum_nonneg (map xexp l)). apply Forall_forall.
  intros x Hx. apply in_map_iff in Hx. destruct Hx as (y & <- & _). apply xexp_nonneg.
Qed.

Lemma xexp_lsum : forall l, xexp (lsum l) = rprod (map xexp l).
Proof. unfold lsum, rprod. induction l as [|x l IH]; cbn [map fold_right]; [apply exp_0|]. rewrite xexp_add, IH. reflexivity. Qed.

Lemma rsum_app : forall a b, rsum (a ++ b) = (rsum a + rsum b)%R.
Proof. unfold rsum. induction a as [|x a IH]; intros b; cbn [app fold_right]; [lra|]. rewrite IH. lra. Qed.

Section Law.
Variable I : SH.
Variable P : params.
Variable data : list (list (Datum I)).
Notation sst := (sst I).
Notation ng := (length data).
Notation wf := (wf I data).

(** ** Beta and Dirichlet updates *)
Lemma is_some_len : forall A (l : list (option A)), length (filter is_some l) = length (somes l).
Proof. induction l as [|[a|] l IH]; cbn; auto. Qed.

Lemma one_or_other : forall hn sn rt pv ts tp, row_ok hn sn rt pv ts tp -> length (somes tp) + length (somes ts) = length tp.
Proof.
  intros hn sn rt pv ts tp R. pose proof (ro_ts _ _ _ _ _ _ R) as A. pose proof (ro_tp _ _ _ _ _ _ R) as B. pose proof (ro_one _ _ _ _ _ _ R) as C.
  rewrite <- B in A. assert (D : forall l, l < length tp -> match nth l tp None, nth l ts None with Some _, None => True | None, Some _ => True | _, _ => False end).
  { intros l Hl. specialize (C l ltac:(lia)). destruct (nth l tp None), (nth l ts None); auto. }
  clear R B C. revert ts A D. induction tp as [|o tp IH]; intros [|o' ts] A D; cbn in A; try lia; auto.
  specialize (IH ts ltac:(lia) ltac:(intros l Hl; apply (D (S l)); cbn; lia)). pose proof (D 0 ltac:(cbn; lia)) as D0.
  unfold somes in *. destruct o, o'; cbn [flat_map app length nth] in *; try tauto; lia.
Qed.

Lemma weight_counts_spec : forall s, wf s -> weight_counts I data s = Ok (n_private I data s, n_private I data s + n_shared I data s).
Proof.
  intros s H. enough (X : ok (weight_counts I data s) (fun c => c = (n_private I data s, n_private I data s + n_shared I data s))).
  { apply ok_inv in X. destruct X as (a & E & ->). exact E. }
  unfold weight_counts, n_private, n_shared.
  apply ok_for with (Inv := fun m acc => acc =
    (length (flat_map (fun r => if occupied I s r then somes (nth r (s_tp I s) []) else []) (seq 0 m)),
     length (flat_map (fun r => if occupied I s r then somes (nth r (s_tp I s) []) else []) (seq 0 m)) +
     length (flat_map (fun r => if occupied I s r then somes (nth r (s_ts I s) []) else []) (seq 0 m)))); auto.
  intros r acc Hr ->. change (r < ng) in Hr. rewrite !flat_map_seq_S, !app_length. unfold occupied at 4 5 6.
  destruct (existsb (Nat.eqb r) (s_ra I s)) eqn:Er; unfold occupied; rewrite ?Er.
  - apply ok_bind. apply ok_at with (d := []); [rewrite (wf_tpl _ _ _ H); auto|]. cbn [ok fst snd]. rewrite is_some_len.
    pose proof (one_or_other _ _ _ _ _ _ (wf_row _ _ _ H r Hr)). f_equal; lia.
  - cbn [ok length]. f_equal; lia.
Qed.

Lemma weight_law : forall s g, wf s ->
  let q := beta I (p_w1 P + INR (n_private I data s)) (p_w2 P + INR (n_shared I data s)) g in
  update_semihdp_weight I P data s g = Ok (w_w I (fst q) s, snd q).
Proof.
  intros s g H q. unfold update_semihdp_weight. rewrite weight_counts_spec by auto. cbn [rbind].
  replace (p_w2 P + INR (n_private I data s + n_shared I data s) - INR (n_private I data s))%R with (p_w2 P + INR (n_shared I data s))%R by (rewrite plus_INR; lra).
  fold q. destruct q. reflexivity.
Qed.

Lemma group_counts_spec : forall s, wf s -> group_counts I data s = Ok (tally ng (s_ra I s)).
Proof.
  intros s H. enough (X : ok (group_counts I data s) (fun c => c = tally ng (s_ra I s))).
  { apply ok_inv in X. destruct X as (a & E & ->). exact E. }
  unfold group_counts. pose proof (wf_ral _ _ _ H) as L.
  apply ok_for with (Inv := fun m acc => acc = tally ng (firstn m (s_ra I s))).
  - symmetry. apply tally_nil.
  - intros i acc Hi ->. change (i < ng) in Hi. apply ok_bind. apply ok_at with (d := 0); [lia|].
    pose proof (wf_ra _ _ _ H i Hi) as X. apply ok_add1; [rewrite tally_length; auto|].
    rewrite tally_snoc by auto. rewrite (firstn_snoc _ 0) by lia. reflexivity.
  - intros b ->. unfold Semi.ng. rewrite <- L, firstn_all. reflexivity.
Qed.

Lemma dirichlet_law : forall s g, wf s ->
  let q := dirich I (map (fun r => p_conc P + INR (n_groups I s r))%R (seq 0 ng)) g in
  update_dirichlet I P data s g = Ok (w_conc I (fst q) s, snd q).
Proof.
  intros s g H q. unfold update_dirichlet. rewrite group_counts_spec by auto. cbn [rbind].
  unfold tally. rewrite map_map.
  replace (map _ (seq 0 ng)) with (map (fun r => p_conc P + INR (n_groups I s r))%R (seq 0 ng)).
  - fold q. destruct q. reflexivity.
  - apply map_ext. intros r. rewrite <- INR_IZR_INZ. unfold n_groups. lra.
Qed.

(** ** The likelihood of a group in a restaurant *)
Definition nonneg (s : sst) : Prop :=
  forall r, r < ng -> Forall (Z.le 0) (nth r (s_n I s) []) /\ Forall (Z.le 0) (nth r (s_np I s) []).

Lemma zsum_nonneg : forall l, Forall (Z.le 0) l -> (0 <= zsum l)%Z.
Proof. unfold zsum. induction 1; cbn [fold_right]; lia. Qed.

Lemma counts_nonneg : forall s r, nonneg s -> r < ng -> Forall (Z.le 0) (counts I s r).
Proof. intros s r N Hr. destruct (N r Hr). unfold counts. destruct (occupied I s r); auto. Qed.

Lemma mix_weight_nonneg : forall s r l, nonneg s -> (0 < p_alpha P)%R -> r < ng -> (0 <= mix_weight I P s r l)%R.
Proof.
  intros s r l N Ha Hr. pose proof (counts_nonneg s r N Hr) as F. unfold mix_weight. apply Rmult_le_pos.
  - apply IZR_le. destruct (Nat.lt_ge_cases l (length (counts I s r))) as [Hl|Hl]; [|rewrite nth_overflow by auto; lia].
    apply Forall_nth'; auto.
  - left. apply Rinv_0_lt_compat. pose proof (IZR_le _ _ (zsum_nonneg _ F)). lra.
Qed.

Lemma used_occupied : forall s r, wf s -> r < ng -> nth r (s_used I s) false = occupied I s r.
Proof.
  intros s r H Hr. pose proof (wf_used _ _ _ H r Hr) as U. unfold occupied. rewrite <- existsb_in in U.
  destruct (nth r (s_used I s) false), (existsb (Nat.eqb r) (s_ra I s)); auto; [symmetry|]; apply U; auto.
Qed.

Lemma pw_mix_lpdf : forall s r d, nonneg s -> (0 < p_alpha P)%R -> r < ng ->
  pw (mix_lpdf I P (tables I s r) (counts I s r) (s_heap I s) d) (fun x => xexp x = mix_density I P s r d).
Proof.
  intros s r d N Ha Hr. unfold mix_lpdf. apply pw_bind. apply pw_rmap. intros ys F. cbn [pw]. rewrite xexp_xlse.
  unfold mix_density. f_equal. eapply rmap_map; [exact F|]. intros l y Hl E. apply in_seq0 in Hl. cbv beta in E. revert E. by_pw.
  apply pw_bind. apply pw_at with (d := 0%Z). intros Hn _. apply pw_bind. apply pw_at with (d := 0). intros Ht _.
  apply pw_bind. apply pw_nth. intros th Eth. cbn [pw]. rewrite xexp_add. unfold dens. rewrite Eth. f_equal.
  rewrite xexp_log; [reflexivity|]. apply (mix_weight_nonneg s r l N Ha Hr).
Qed.

Lemma seq_data : forall A B (d : A) (l : list A) (f : A -> B), map f l = map (fun j => f (nth j l d)) (seq 0 (length l)).
Proof.
  intros A B d l f. induction l as [|a l IH]; cbn; auto. f_equal. rewrite IH, <- seq_shift, map_map. reflexivity.
Qed.

Lemma forall2_data : forall A B C (l : list A) (f : nat -> res B) (h : B -> C) (k : A -> C) ys,
  Forall2 (fun x y => f x = Ok y) (seq 0 (length l)) ys -> (forall j d y, nth_error l j = Some d -> f j = Ok y -> h y = k d) -> map h ys = map k l.
Proof.
  intros A B C l. induction l as [|a l IH]; intros f h k ys F H; cbn in F; inversion F; subst; cbn; auto.
  f_equal; [apply (H 0 a); auto|]. apply (IH (fun j => f (S j))); [|intros j d z E1 E2; apply (H (S j)); auto].
  clear -H4. revert H4. rewrite <- seq_shift. generalize (seq 0 (length l)). intros q. revert l'. induction q; intros l' F; cbn in F; inversion F; subst; constructor; auto.
Qed.

Lemma pw_lpdf : forall s i r, cols I = 1 -> wf s -> nonneg s -> (0 < p_alpha P)%R -> r < ng ->
  pw (lpdf_for_group I P data s i r) (fun x => xexp x = rprod (map (mix_density I P s r) (nth i data []))).
Proof.
  intros s i r C H N Ha Hr. unfold lpdf_for_group. apply pw_bind. apply pw_at with (d := false). intros _ _.
  rewrite used_occupied by auto.
  apply pw_bind. apply pw_at with (d := []). intros _ _. apply pw_bind. apply pw_at with (d := []). intros _ _.
  replace (nth r (if occupied I s r then s_rest I s else s_restp I s) []) with (tables I s r) by (unfold tables; destruct (occupied I s r); auto).
  replace (nth r (if occupied I s r then s_n I s else s_np I s) []) with (counts I s r) by (unfold counts; destruct (occupied I s r); auto).
  apply pw_bind. unfold nby. apply pw_bind. apply pw_at with (d := []). intros Hi Ei. cbn [pw]. rewrite C, Nat.mul_1_r.
  apply pw_bind. apply pw_rmap. intros ys F. cbn [pw]. rewrite xexp_lsum. f_equal.
  eapply forall2_data; [exact F|]. intros j d y Ej E. cbv beta in E. revert E. by_pw. apply pw_bind. unfold row, at2. apply pw_bind.
  apply pw_nth. intros row Er. rewrite Ei in Er. injection Er as <-. apply pw_nth. intros d' Ed. rewrite Ej in Ed. injection Ed as <-.
  apply pw_mix_lpdf; auto.
Qed.

(** ** A group changes restaurant *)
Definition same_laws (s s' : sst) : Prop := s_conc I s' = s_conc I s /\ s_w I s' = s_w I s.

Lemma same_laws_refl : forall s, same_laws s s.
Proof. split; reflexivity. Qed.
Lemma same_laws_trans : forall a b c, same_laws a b -> same_laws b c -> same_laws a c.
Proof. intros a b c [A1 A2] [B1 B2]. split; congruence. Qed.

Lemma pw_reassign_obs : forall i r s g j, pw (reassign_obs I data i r (s, g) j) (fun q => exists tab, fst q = w_tab I tab s).
Proof.
  intros i r s g j. unfold reassign_obs. apply pw_bind. apply pw_any. intros d _. apply pw_bind. apply pw_any. intros rt _.
  apply pw_bind. apply pw_any. intros ps _. destruct ps; [exact Logic.I|]. destruct (cat I (x :: ps) g) as [t g1].
  apply pw_bind. apply pw_any. intros tab _. cbn. eauto.
Qed.

Lemma pw_reassign_group : forall i nr old s g, pw (reassign_group I data i nr old s g)
  (fun q => s_ra I (fst q) = upd (s_ra I s) i nr /\ same_laws s (fst q)).
Proof.
  intros i nr old s g. unfold reassign_group. apply pw_bind. apply pw_set. intros _. apply pw_bind. apply pw_any. intros us _.
  apply pw_bind. apply pw_any. intros un _. apply pw_bind.
  apply pw_mono with (Q := fun s2 => s_ra I s2 = upd (s_ra I s) i nr /\ same_laws s s2).
  - destruct un; [cbn; repeat split|]. apply pw_bind. apply pw_any. intros tabs _. do 7 (apply pw_bind; apply pw_any; intros ? _). cbn. repeat split.
  - intros s2 [E1 E2]. apply pw_bind. apply pw_any. intros n _.
    apply (pw_rfold _ _ _ _ (fun q => s_ra I (fst q) = upd (s_ra I s) i nr /\ same_laws s (fst q))); auto.
    intros [s3 g3] j _ [F1 F2]. eapply pw_mono; [apply pw_reassign_obs|]. intros [s4 g4] (tab & E). cbn [fst] in *. subst s4. cbn. auto.
Qed.

Lemma upd_self : forall A (l : list A) i d, upd l i (nth i l d) = l.
Proof.
  induction l as [|a l IH]; intros i d; [destruct i; reflexivity|]. destruct i; cbn; [reflexivity|]. f_equal. apply IH.
Qed.

Lemma pw_finish : forall s g i nr, pw (if nr =? nth i (s_ra I s) 0 then Ok (s, g) else reassign_group I data i nr (nth i (s_ra I s) 0) s g)
  (fun q => s_ra I (fst q) = upd (s_ra I s) i nr /\ same_laws s (fst q)).
Proof.
  intros s g i nr. destruct (Nat.eqb_spec nr (nth i (s_ra I s) 0)) as [->|N]; [|apply pw_reassign_group].
  cbn. rewrite upd_self. split; auto. apply same_laws_refl.
Qed.

Definition good (s : sst) : Prop := wf s /\ nonneg s /\ Forall (Rle 0) (s_conc I s).

Lemma conc_nonneg : forall s r, good s -> (0 <= nth r (s_conc I s) 0)%R.
Proof.
  intros s r (_ & _ & F). destruct (Nat.lt_ge_cases r (length (s_conc I s))); [apply Forall_nth'; auto|]. rewrite nth_overflow by auto. lra.
Qed.

Lemma full_law : forall s g i s' g', cols I = 1 -> good s -> (0 < p_alpha P)%R -> p_mode P = "full"%string ->
  rest_step I P data (s, g) i = Ok (s', g') ->
  exists ps, map xexp ps = map (target I P data s i) (seq 0 ng) /\ s_ra I s' = upd (s_ra I s) i (fst (cat I ps g)).
Proof.
  intros s g i s' g' C G Ha M E. pose proof G as (H & N & _). revert E. apply (pw_ok _ _ (fun q => exists ps, map xexp ps = map (target I P data s i) (seq 0 ng) /\ s_ra I (fst q) = upd (s_ra I s) i (fst (cat I ps g)))).
  unfold rest_step. apply pw_bind. apply pw_at with (d := 0). intros _ _. rewrite M. cbn [String.eqb Ascii.eqb Bool.eqb].
  apply pw_bind. apply pw_bind. apply pw_rmap. intros ps F. cbn [pw].
  assert (X : map xexp ps = map (target I P data s i) (seq 0 ng)).
  { eapply rmap_map; [exact F|]. intros r y Hr. apply in_seq0 in Hr. change (r < ng) in Hr. cbv beta. by_pw.
    apply pw_bind. eapply pw_mono; [apply (pw_lpdf s i r); auto|]. intros l El. apply pw_bind. apply pw_at with (d := 0%R). intros _ _. cbn [pw].
    rewrite xexp_add, El, xexp_log by (apply conc_nonneg; auto). unfold target. ring. }
  destruct (cat I ps g) as [nr g1] eqn:Ec. eapply pw_mono; [apply pw_finish|]. intros q [E1 _]. exists ps. rewrite Ec. auto.
Qed.

Lemma metro_law : forall s i prop g0 g' s', cols I = 1 -> good s -> (0 < p_alpha P)%R -> prop < ng ->
  (ln_ <- lpdf_for_group I P data s i prop ;; cn <- at_ (s_conc I s) prop ;;
   ld <- lpdf_for_group I P data s i (nth i (s_ra I s) 0) ;; cd <- at_ (s_conc I s) (nth i (s_ra I s) 0) ;;
   let '(u, g2) := unif I g0 in
   if Rlt_dec (u * (xexp (xadd ld (xlog cd)))) (xexp (xadd ln_ (xlog cn))) then Ok (prop, g2) else Ok (nth i (s_ra I s) 0, g2)) = Ok (s', g') ->
  i < ng -> s' = if Rlt_dec (fst (unif I g0) * target I P data s i (nth i (s_ra I s) 0)) (target I P data s i prop) then prop else nth i (s_ra I s) 0.
Proof.
  intros s i prop g0 g' s' C G Ha Hp E Hi. pose proof G as (H & N & _). revert E.
  apply (pw_ok _ _ (fun q => fst q = if Rlt_dec (fst (unif I g0) * target I P data s i (nth i (s_ra I s) 0)) (target I P data s i prop) then prop else nth i (s_ra I s) 0)).
  pose proof (wf_ra _ _ _ H i Hi) as Hc.
  apply pw_bind. eapply pw_mono; [apply (pw_lpdf s i prop); auto|]. intros l El. apply pw_bind. apply pw_at with (d := 0%R). intros _ _.
  apply pw_bind. eapply pw_mono; [apply (pw_lpdf s i); auto|]. intros l2 El2. apply pw_bind. apply pw_at with (d := 0%R). intros _ _.
  assert (X1 : xexp (xadd l (xlog (nth prop (s_conc I s) 0%R))) = target I P data s i prop).
  { rewrite xexp_add, El, xexp_log by (apply conc_nonneg; auto). unfold target. ring. }
  assert (X2 : xexp (xadd l2 (xlog (nth (nth i (s_ra I s) 0) (s_conc I s) 0%R))) = target I P data s i (nth i (s_ra I s) 0)).
  { rewrite xexp_add, El2, xexp_log by (apply conc_nonneg; auto). unfold target. ring. }
  rewrite X1, X2. destruct (unif I g0) as [u g2]. cbn [fst]. destruct (Rlt_dec _ _); reflexivity.
Qed.

Definition moved (s : sst) (i prop : nat) (u : R) : nat :=
  if Rlt_dec (u * target I P data s i (nth i (s_ra I s) 0)) (target I P data s i prop) then prop else nth i (s_ra I s) 0.

Lemma base_law : forall s g i s' g', cols I = 1 -> gen_ok I -> good s -> (0 < p_alpha P)%R -> p_mode P = "metro_base"%string -> i < ng ->
  rest_step I P data (s, g) i = Ok (s', g') ->
  s_ra I s' = upd (s_ra I s) i (moved s i (fst (uint I ng g)) (fst (unif I (snd (uint I ng g))))).
Proof.
  intros s g i s' g' C HG G Ha M Hi E. revert E.
  apply (pw_ok _ _ (fun q => s_ra I (fst q) = upd (s_ra I s) i (moved s i (fst (uint I ng g)) (fst (unif I (snd (uint I ng g))))))).
  unfold rest_step. apply pw_bind. apply pw_at with (d := 0). intros _ _. rewrite M. cbn [String.eqb Ascii.eqb Bool.eqb].
  apply pw_bind. pose proof (go_uint _ HG ng g ltac:(lia)) as Hp. unfold Semi.ng. cbn [rbind]. destruct (uint I ng g) as [prop g0]. cbn [fst snd] in *.
  apply pw_any. intros [nr g1] E. pose proof (metro_law s i prop g0 g1 nr C G Ha Hp E Hi) as X. subst nr.
  eapply pw_mono; [apply pw_finish|]. intros q [E1 _]. exact E1.
Qed.

(** The mixtures compared. *)
Lemma mix_of_spec : forall s r, wf s -> r < ng -> pw (mix_of I s r) (fun c => normalise I c = mixture I s r).
Proof.
  intros s r H Hr. unfold mix_of. apply pw_bind. apply pw_at with (d := []). intros _ _. apply pw_rmap. intros ys F.
  set (rt := nth r (s_rest I s) []) in *. set (w := fun l => IZR (nth l (nth r (s_n I s) []) 0%Z)).
  assert (X : forall l y, (o <- at_ rt l ;; th <- at_ (s_heap I s) o ;; n <- at2 (s_n I s) r l ;; Ok (th, IZR n)) = Ok y ->
    nth_error (s_heap I s) (nth l rt 0) = Some (fst y) /\ snd y = w l).
  { intros l y. by_pw. apply pw_bind. apply pw_at with (d := 0). intros _ _. apply pw_bind. apply pw_nth. intros th Eth.
    apply pw_bind. apply pw_at2 with (d := 0%Z). intros _ _. cbn. auto. }
  unfold normalise, mixture. fold rt.
  assert (T : fold_right Rplus 0%R (map snd ys) = rsum (map w (seq 0 (length rt)))).
  { unfold rsum. f_equal. eapply rmap_map; [exact F|]. intros l y _ E. apply (X l y E). }
  rewrite T. clear T. unfold w in X. cbv zeta. fold w. generalize (rsum (map w (seq 0 (length rt)))) as t. intros t. unfold w. clear w.
  revert F. generalize (seq 0 (length rt)). intros ls F. induction F as [|l y ls ys E F IH]; cbn; auto.
  destruct (X l y E) as [X1 X2]. rewrite X1, X2. cbn [app]. f_equal. exact IH.
Qed.

Lemma distance_spec : forall s c, wf s -> c < ng ->
  pw (mixture_distance I data s c) (fun ds => ds = map (fun r => mdist I (mixture I s c) (mixture I s r)) (seq 0 ng)).
Proof.
  intros s c H Hc. unfold mixture_distance. apply pw_bind. eapply pw_mono; [apply (mix_of_spec s c H Hc)|]. intros c1 E1.
  unfold Semi.ng. assert (Hn : (ng =? 0) = false) by (apply Nat.eqb_neq; lia). rewrite Hn. destruct c1 as [|x c1]; [exact Logic.I|]. set (y := x :: c1) in *. clearbody y.
  apply pw_rmap. intros ys F. rewrite <- (map_id ys). eapply rmap_map; [exact F|]. intros r d Hr. apply in_seq0 in Hr. cbv beta. by_pw.
  apply pw_bind. eapply pw_mono; [apply (mix_of_spec s r H Hr)|]. intros c2 E2. cbn [pw]. rewrite E1, E2. reflexivity.
Qed.

Lemma dist_law : forall s g i s' g', cols I = 1 -> gen_ok I -> good s -> (0 < p_alpha P)%R -> p_mode P = "metro_dist"%string -> i < ng ->
  rest_step I P data (s, g) i = Ok (s', g') ->
  let q := catp I (map (proposal I data s (nth i (s_ra I s) 0)) (seq 0 ng)) g in
  s_ra I s' = upd (s_ra I s) i (moved s i (fst q) (fst (unif I (snd q)))).
Proof.
  intros s g i s' g' C HG G Ha M Hi E q. revert E. pose proof G as (H & _).
  apply (pw_ok _ _ (fun p => s_ra I (fst p) = upd (s_ra I s) i (moved s i (fst q) (fst (unif I (snd q)))))).
  unfold rest_step. apply pw_bind. apply pw_at with (d := 0). intros _ _. rewrite M. cbn [String.eqb Ascii.eqb Bool.eqb].
  pose proof (wf_ra _ _ _ H i Hi) as Hc. set (c := nth i (s_ra I s) 0) in *.
  apply pw_bind. apply pw_bind. apply pw_bind. eapply pw_mono; [apply (distance_spec s c H Hc)|]. intros ds ->. cbn [pw].
  match goal with |- context [catp I ?l g] => replace l with (map (proposal I data s c) (seq 0 ng)) end.
  2:{ rewrite !map_map. apply map_ext. intros r. unfold proposal, rsum. f_equal; [unfold near; f_equal; unfold Rdiv; rewrite !Rmult_1_l; reflexivity|].
      f_equal. apply map_ext. intros r'. unfold near. unfold Rdiv. rewrite !Rmult_1_l. reflexivity. }
  fold q. assert (Hp : fst q < ng).
  { unfold q. eapply Nat.lt_le_trans; [apply (go_catp _ HG)|rewrite map_length, seq_length; auto]. destruct data; [cbn in Hi; lia|discriminate]. }
  destruct q as [prop g0]. cbn [fst snd] in *.
  apply pw_any. intros [nr g1] E. pose proof (metro_law s i prop g0 g1 nr C G Ha Hp E Hi) as X. subst nr.
  eapply pw_mono; [apply pw_finish|]. intros p [E1 _]. exact E1.
Qed.

End Law.
