(** * Masses of the marginal mixings: proofs. *)
From Coq Require Import String.
From Coq Require Import Bool List Arith ZArith Lia Reals Lra Permutation.
From Verif Require Import Base XReal Mixings PartSpec.
Import ListNotations.

Local Open Scope R_scope.
Arguments prodR l : simpl never.
Arguments sumR l : simpl never.

Lemma gtb_true : forall x y, gtb x y = true <-> y < x.
Proof. intros x y. unfold gtb. destruct (Rlt_dec y x); split; intros; auto; discriminate || contradiction. Qed.
Lemma gtb_false : forall x y, gtb x y = false <-> x <= y.
Proof. intros x y. unfold gtb. destruct (Rlt_dec y x); split; intros; auto; try discriminate; lra. Qed.
Lemma lteb_true : forall x y, lteb x y = true <-> x <= y.
Proof. intros x y. unfold lteb. destruct (Rle_dec x y); split; intros; auto; discriminate || contradiction. Qed.
Lemma lteb_false : forall x y, lteb x y = false <-> y < x.
Proof. intros x y. unfold lteb. destruct (Rle_dec x y); split; intros; auto; try discriminate; lra. Qed.

(** Parameters accepted by the initialisation. *)
Lemma dp_init_pos : forall p s0 s, dp_init p s0 = Ok s -> 0 < dp_tot s.
Proof.
  intros [m|a b|] s0 s H; simpl in H; try discriminate.
  - destruct (lteb m 0) eqn:E; [discriminate|]. apply lteb_false in E. injection H as <-. auto.
  - destruct (lteb a 0) eqn:E1; [discriminate|]. destruct (lteb b 0) eqn:E2; [discriminate|].
    apply lteb_false in E1. apply lteb_false in E2. injection H as <-. simpl.
    apply Rdiv_lt_0_compat; auto.
Qed.

Lemma py_init_ok : forall p s, py_init p = Ok s -> 0 <= py_dis s < 1 /\ - py_dis s < py_str s.
Proof.
  intros [t d|] s H; simpl in H; try discriminate.
  destruct (lteb t (- d)) eqn:E1; [discriminate|]. destruct (gtb 0 d) eqn:E2; [discriminate|].
  destruct (lteb 1 d) eqn:E3; [discriminate|]. apply lteb_false in E1. apply gtb_false in E2.
  apply lteb_false in E3. injection H as <-. simpl. lra.
Qed.

(** Sums over cluster sizes. *)
Lemma sumR_app : forall a b, sumR (a ++ b) = sumR a + sumR b.
Proof. induction a as [|x a IH]; intros b; unfold sumR in *; simpl; [lra|]. rewrite IH. lra. Qed.
Lemma sumR_cons : forall x l, sumR (x :: l) = x + sumR l.
Proof. reflexivity. Qed.
Lemma prodR_cons : forall x l, prodR (x :: l) = x * prodR l.
Proof. reflexivity. Qed.
Lemma prodR_app : forall a b, prodR (a ++ b) = prodR a * prodR b.
Proof. induction a as [|x a IH]; intros b; simpl; [unfold prodR; simpl; lra|]. rewrite !prodR_cons, IH. lra. Qed.

Lemma sum_masses : forall (f : nat -> R) sizes c d,
  (forall m, In m sizes -> f m = (INR m - d) * c) ->
  sumR (map f sizes) = (INR (list_sum sizes) - d * INR (length sizes)) * c.
Proof.
  intros f sizes c d H. induction sizes as [|m l IH].
  - unfold sumR. simpl. lra.
  - simpl map. rewrite sumR_cons, IH by (intros; apply H; right; auto).
    rewrite (H m) by (left; auto). simpl list_sum. simpl length. rewrite plus_INR, S_INR. lra.
Qed.

Lemma list_sum_ge : forall l : list nat, Forall (fun m => (1 <= m)%nat) l -> (length l <= list_sum l)%nat.
Proof. induction 1; simpl; lia. Qed.

Lemma py_den_pos : forall s n, 0 <= py_dis s < 1 -> - py_dis s < py_str s ->
  (1 <= n)%nat \/ 0 < py_str s -> 0 < INR n + py_str s.
Proof.
  intros s n Hd Ht [Hn | Hn].
  - assert (1 <= INR n) by (apply (le_INR 1); auto). lra.
  - pose proof (pos_INR n). lra.
Qed.

Lemma py_new_pos : forall s k, 0 <= py_dis s < 1 -> - py_dis s < py_str s ->
  (1 <= k)%nat \/ 0 < py_str s -> 0 < py_str s + py_dis s * INR k.
Proof.
  intros s k Hd Ht [Hk | Hk].
  - assert (1 <= INR k) by (apply (le_INR 1); auto).
    assert (py_dis s * 1 <= py_dis s * INR k) by (apply Rmult_le_compat_l; lra). lra.
  - pose proof (pos_INR k). assert (0 <= py_dis s * INR k) by (apply Rmult_le_pos; lra). lra.
Qed.

Definition lin (r : res xreal) : R := match r with Ok (Fin v) => v | _ => 0 end.

(** Masses in one list: existing clusters, then the new one. *)
Definition masses (ex : nat -> nat -> Z -> res xreal) (new : nat -> nat -> res xreal)
    (sizes : list nat) : list (res xreal) :=
  map (fun m => ex (list_sum sizes) (length sizes) (Z.of_nat m)) sizes
  ++ [new (list_sum sizes) (length sizes)].

Lemma py_masses_sum : forall p s sizes, py_init p = Ok s ->
  Forall (fun m => (1 <= m)%nat) sizes -> sizes <> [] \/ 0 < py_str s ->
  exists ws, masses (fun n k => py_mass_ex s n k false false) (fun n k => py_mass_new s n k false false) sizes
             = map (fun w => Ok (Fin w)) ws /\ Forall (fun w => 0 < w) ws /\ sumR ws = 1.
Proof.
  intros p s sizes Hi Hs Hne. destruct (py_init_ok _ _ Hi) as [Hd Ht].
  assert (Hn : (1 <= list_sum sizes)%nat \/ 0 < py_str s).
  { destruct Hne as [Hne|]; auto. left. pose proof (list_sum_ge _ Hs). destruct sizes; [congruence|simpl in *; lia]. }
  assert (Hk : (1 <= length sizes)%nat \/ 0 < py_str s).
  { destruct Hne as [Hne|]; auto. left. destruct sizes; [congruence|simpl; lia]. }
  pose proof (py_den_pos _ _ Hd Ht Hn) as Hden. pose proof (py_new_pos _ _ Hd Ht Hk) as Hnew.
  set (den := INR (list_sum sizes) + py_str s) in *.
  exists (map (fun m => (INR m - py_dis s) * / den) sizes ++ [(py_str s + py_dis s * INR (length sizes)) * / den]).
  split; [|split].
  - unfold masses. rewrite map_app, map_map. simpl. fold den. f_equal.
    apply map_ext_in. intros m Hm. rewrite Forall_forall in Hs. specialize (Hs m Hm).
    unfold py_mass_ex. destruct (Z.eqb_spec (Z.of_nat m) 0); [lia|].
    rewrite <- INR_IZR_INZ. reflexivity.
  - apply Forall_app. split.
    + rewrite Forall_forall in *. intros w Hw. apply in_map_iff in Hw. destruct Hw as (m & <- & Hm).
      specialize (Hs m Hm). assert (1 <= INR m) by (apply (le_INR 1); auto).
      apply Rmult_lt_0_compat; [lra|]. apply Rinv_0_lt_compat; auto.
    + constructor; auto. apply Rmult_lt_0_compat; auto. apply Rinv_0_lt_compat; auto.
  - rewrite sumR_app. rewrite sum_masses with (c := / den) (d := py_dis s) by auto.
    unfold sumR at 1. simpl. unfold den in *. field. lra.
Qed.

Lemma dp_masses_sum : forall p s0 s sizes, dp_init p s0 = Ok s ->
  Forall (fun m => (1 <= m)%nat) sizes ->
  exists ws, masses (fun n k => dp_mass_ex s n k false false) (fun n k => dp_mass_new s n k false false) sizes
             = map (fun w => Ok (Fin w)) ws /\ Forall (fun w => 0 < w) ws /\ sumR ws = 1.
Proof.
  intros p s0 s sizes Hi Hs. pose proof (dp_init_pos _ _ _ Hi) as Hm.
  set (den := INR (list_sum sizes) + dp_tot s) in *.
  assert (Hden : 0 < den) by (unfold den; pose proof (pos_INR (list_sum sizes)); lra).
  exists (map (fun m => (INR m - 0) * / den) sizes ++ [dp_tot s * / den]). split; [|split].
  - unfold masses. rewrite map_app, map_map. simpl. fold den. f_equal.
    apply map_ext_in. intros m Hin. unfold dp_mass_ex. fold den. rewrite <- INR_IZR_INZ.
    do 2 f_equal. unfold Rdiv. ring.
  - apply Forall_app. split.
    + rewrite Forall_forall in *. intros w Hw. apply in_map_iff in Hw. destruct Hw as (m & <- & Hin).
      specialize (Hs m Hin). assert (1 <= INR m) by (apply (le_INR 1); auto).
      apply Rmult_lt_0_compat; [lra|]. apply Rinv_0_lt_compat; auto.
    + constructor; auto. apply Rmult_lt_0_compat; auto. apply Rinv_0_lt_compat; auto.
  - rewrite sumR_app. rewrite sum_masses with (c := / den) (d := 0) by auto.
    unfold sumR at 1. simpl. unfold den in *. field. lra.
Qed.

(** ** The Ewens-Pitman formula, one observation at a time *)

Lemma rising_S : forall x n, rising x (S n) = rising x n * (x + INR n).
Proof.
  intros x n. unfold rising. rewrite seq_S, map_app, prodR_app. simpl. unfold prodR at 2. simpl. ring.
Qed.

Lemma rising_pos : forall x n, 0 < x -> 0 < rising x n.
Proof.
  intros x n Hx. induction n as [|n IH]; [unfold rising, prodR; simpl; lra|].
  rewrite rising_S. apply Rmult_lt_0_compat; auto. pose proof (pos_INR n). lra.
Qed.

Lemma prod_change : forall (f g : nat -> R) x l, NoDup l -> In x l ->
  (forall c, In c l -> c <> x -> f c = g c) ->
  prodR (map f l) * g x = prodR (map g l) * f x.
Proof.
  intros f g x l. induction l as [|c l IH]; intros Hnd Hin H; [destruct Hin|].
  inversion Hnd as [|? ? Hni Hnd']; subst. simpl map. rewrite !prodR_cons.
  destruct (Nat.eq_dec c x) as [->|Hne].
  - assert (E : map f l = map g l).
    { apply map_ext_in. intros c Hc. apply H; [right; auto|]. intros ->. auto. }
    rewrite E. ring.
  - destruct Hin as [|Hin]; [congruence|]. rewrite (H c) by (simpl; auto).
    rewrite !Rmult_assoc, (IH Hnd' Hin); auto. intros; apply H; simpl; auto.
Qed.

Lemma distinct_in : forall x l, In x (distinct l) <-> In x l.
Proof. intros. apply nodup_In. Qed.
Lemma distinct_old : forall x l, In x l -> distinct (x :: l) = distinct l.
Proof. intros x l H. unfold distinct. simpl. destruct (in_dec Nat.eq_dec x l); [auto|contradiction]. Qed.
Lemma distinct_new : forall x l, ~ In x l -> distinct (x :: l) = x :: distinct l.
Proof. intros x l H. unfold distinct. simpl. destruct (in_dec Nat.eq_dec x l); [contradiction|auto]. Qed.
Lemma distinct_nodup : forall l, NoDup (distinct l).
Proof. intros. apply NoDup_nodup. Qed.

Lemma sizes_old_prod : forall (F : nat -> R) x prev, In x prev ->
  let m := count_occ Nat.eq_dec prev x in
  prodR (map F (sizes_of (x :: prev))) * F m = prodR (map F (sizes_of prev)) * F (S m).
Proof.
  intros F x prev Hx m. unfold sizes_of. rewrite distinct_old by auto. rewrite !map_map.
  pose proof (prod_change (fun c => F (count_occ Nat.eq_dec (x :: prev) c)) (fun c => F (count_occ Nat.eq_dec prev c))
    x (distinct prev) (distinct_nodup prev)) as P.
  cbv beta in P. rewrite count_occ_cons_eq in P by auto.
  apply P.
  - apply distinct_in; auto.
  - intros c _ Hc. rewrite count_occ_cons_neq by auto. auto.
Qed.

Lemma sizes_new : forall x prev, ~ In x prev -> sizes_of (x :: prev) = 1%nat :: sizes_of prev.
Proof.
  intros x prev Hx. unfold sizes_of. rewrite distinct_new by auto. simpl map.
  f_equal.
  - destruct (Nat.eq_dec x x); [|congruence]. f_equal. apply count_occ_not_In; auto.
  - apply map_ext_in. intros c Hc. destruct (Nat.eq_dec x c) as [->|]; [|auto].
    apply (proj1 (distinct_in c prev)) in Hc. contradiction.
Qed.

Lemma list_sum_change : forall (f g : nat -> nat) x l, NoDup l -> In x l ->
  (forall c, In c l -> c <> x -> f c = g c) -> (list_sum (map f l) + g x = list_sum (map g l) + f x)%nat.
Proof.
  intros f g x l. induction l as [|c l IH]; intros Hnd Hin H; [destruct Hin|].
  inversion Hnd as [|? ? Hni Hnd']; subst. simpl.
  destruct (Nat.eq_dec c x) as [->|Hne].
  - assert (E : map f l = map g l).
    { apply map_ext_in. intros c Hc. apply H; [right; auto|]. intros ->. auto. }
    rewrite E. lia.
  - destruct Hin as [|Hin]; [congruence|]. rewrite (H c) by (simpl; auto).
    assert (list_sum (map f l) + g x = list_sum (map g l) + f x)%nat by (apply IH; auto; intros; apply H; simpl; auto).
    lia.
Qed.

Lemma sizes_sum : forall al, list_sum (sizes_of al) = length al.
Proof.
  induction al as [|x l IH]; auto. destruct (in_dec Nat.eq_dec x l) as [Hi|Hn].
  - unfold sizes_of in *. rewrite distinct_old by auto.
    pose proof (list_sum_change (count_occ Nat.eq_dec (x :: l)) (count_occ Nat.eq_dec l) x (distinct l) (distinct_nodup l)) as P.
    rewrite count_occ_cons_eq in P by auto.
    assert (list_sum (map (count_occ Nat.eq_dec (x :: l)) (distinct l)) + count_occ Nat.eq_dec l x =
            list_sum (map (count_occ Nat.eq_dec l) (distinct l)) + S (count_occ Nat.eq_dec l x))%nat.
    { apply P. apply distinct_in; auto. intros c _ Hc. rewrite count_occ_cons_neq by auto. auto. }
    simpl length. lia.
  - rewrite sizes_new by auto. simpl. lia.
Qed.

Lemma sizes_length : forall al, length (sizes_of al) = length (distinct al).
Proof. intros. unfold sizes_of. apply map_length. Qed.

Lemma sizes_pos : forall al, Forall (fun m => (1 <= m)%nat) (sizes_of al).
Proof.
  intros al. unfold sizes_of. apply Forall_forall. intros m Hm. apply in_map_iff in Hm.
  destruct Hm as (c & <- & Hc). apply (proj1 (distinct_in c al)) in Hc.
  apply (count_occ_In Nat.eq_dec) in Hc. lia.
Qed.

Lemma distinct_nonempty : forall al, al <> [] -> (1 <= length (distinct al))%nat.
Proof.
  intros al H. assert (distinct al <> []).
  { destruct al as [|x l]; [congruence|]. intros E. assert (In x (distinct (x :: l))) by (apply distinct_in; simpl; auto).
    rewrite E in *. auto. }
  destruct (distinct al); [congruence|simpl; lia].
Qed.

Lemma ep_old : forall t d x prev, 0 <= d < 1 -> - d < t -> In x prev ->
  ewens_pitman t d (sizes_of (x :: prev)) =
  ewens_pitman t d (sizes_of prev) * ((INR (count_occ Nat.eq_dec prev x) - d) / (INR (length prev) + t)).
Proof.
  intros t d x prev Hd Ht Hx.
  assert (Hne : prev <> []) by (intros ->; auto).
  assert (Hlen : (1 <= length prev)%nat) by (destruct prev; [congruence|simpl; lia]).
  pose proof (sizes_old_prod (fun m => rising (1 - d) (m - 1)) _ _ Hx) as P. cbv zeta beta in P.
  set (m := count_occ Nat.eq_dec prev x) in *.
  assert (Hm : (1 <= m)%nat) by (apply (count_occ_In Nat.eq_dec) in Hx; unfold m; lia).
  unfold ewens_pitman. rewrite !sizes_sum, !sizes_length. rewrite distinct_old by auto. simpl length.
  replace (S (length prev) - 1)%nat with (S (length prev - 1)) by lia. rewrite rising_S.
  replace (S m - 1)%nat with (S (m - 1)) in P by lia. rewrite rising_S in P.
  assert (R1 : 0 < rising (1 - d) (m - 1)) by (apply rising_pos; lra).
  assert (R2 : 0 < rising (t + 1) (length prev - 1)) by (apply rising_pos; lra).
  assert (EI : INR (length prev - 1) = INR (length prev) - 1) by (rewrite minus_INR by lia; simpl; lra).
  assert (EM : INR (m - 1) = INR m - 1) by (rewrite minus_INR by lia; simpl; lra).
  rewrite EI. rewrite EM in P.
  assert (Hp : 1 <= INR (length prev)) by (apply (le_INR 1); auto).
  set (A := prodR (map (fun m0 => rising (1 - d) (m0 - 1)) (sizes_of (x :: prev)))) in *.
  set (B := prodR (map (fun m0 => rising (1 - d) (m0 - 1)) (sizes_of prev))) in *.
  assert (EA : A = B * (INR m - d)).
  { apply Rmult_eq_reg_r with (rising (1 - d) (m - 1)); [|lra]. rewrite P. ring. }
  rewrite EA. field. split; lra.
Qed.

Lemma ep_new : forall t d x prev, 0 <= d < 1 -> - d < t -> prev <> [] -> ~ In x prev ->
  ewens_pitman t d (sizes_of (x :: prev)) =
  ewens_pitman t d (sizes_of prev) * ((t + d * INR (length (distinct prev))) / (INR (length prev) + t)).
Proof.
  intros t d x prev Hd Ht Hne Hx.
  assert (Hlen : (1 <= length prev)%nat) by (destruct prev; [congruence|simpl; lia]).
  pose proof (distinct_nonempty _ Hne) as Hk.
  unfold ewens_pitman. rewrite !sizes_sum, !sizes_length. rewrite sizes_new by auto.
  rewrite distinct_new by auto. simpl length. simpl map. rewrite prodR_cons.
  replace (S (length prev) - 1)%nat with (S (length prev - 1)) by lia. rewrite rising_S.
  replace (length (distinct prev) - 0)%nat with (S (length (distinct prev) - 1)) by lia.
  rewrite seq_S, map_app, prodR_app. cbn [map].
  change (1 + (length (distinct prev) - 1))%nat with (S (length (distinct prev) - 1)).
  replace (S (length (distinct prev) - 1)) with (length (distinct prev)) by lia.
  assert (R2 : 0 < rising (t + 1) (length prev - 1)) by (apply rising_pos; lra).
  assert (EI : INR (length prev - 1) = INR (length prev) - 1) by (rewrite minus_INR by lia; simpl; lra).
  rewrite EI. assert (Hp : 1 <= INR (length prev)) by (apply (le_INR 1); auto).
  assert (E1 : rising (1 - d) 0 = 1) by reflexivity. rewrite E1.
  assert (E2 : prodR [t + INR (length (distinct prev)) * d] = t + INR (length (distinct prev)) * d) by (unfold prodR; simpl; ring).
  rewrite E2. field. split; lra.
Qed.

Lemma ep_single : forall t d x, ewens_pitman t d (sizes_of [x]) = 1.
Proof.
  intros t d x. unfold sizes_of. simpl. destruct (Nat.eq_dec x x); [|congruence].
  unfold ewens_pitman, prodR, rising, prodR. simpl. field.
Qed.

Lemma ep_pos : forall t d al, 0 <= d < 1 -> - d < t -> al <> [] -> 0 < ewens_pitman t d (sizes_of al).
Proof.
  intros t d al Hd Ht. induction al as [|x prev IH]; intros Hne; [congruence|].
  destruct prev as [|y prev].
  - rewrite ep_single. lra.
  - assert (H1 : 1 <= INR (length (y :: prev))) by (apply (le_INR 1); simpl; lia).
    assert (H2 : 1 <= INR (length (distinct (y :: prev)))) by (apply (le_INR 1); apply distinct_nonempty; discriminate).
    destruct (in_dec Nat.eq_dec x (y :: prev)) as [Hi|Hn].
    + rewrite ep_old by auto. apply Rmult_lt_0_compat; [apply IH; discriminate|].
      apply Rdiv_lt_0_compat; [|lra]. apply (count_occ_In Nat.eq_dec) in Hi.
      assert (1 <= INR (count_occ Nat.eq_dec (y :: prev) x)) by (apply (le_INR 1); lia). lra.
    + rewrite ep_new by (auto; discriminate). apply Rmult_lt_0_compat; [apply IH; discriminate|].
      apply Rdiv_lt_0_compat; [|lra].
      assert (d * 1 <= d * INR (length (distinct (y :: prev)))) by (apply Rmult_le_compat_l; lra). lra.
Qed.

Lemma prodR_perm : forall l l', Permutation l l' -> prodR l = prodR l'.
Proof. induction 1; rewrite ?prodR_cons in *; auto; try rewrite IHPermutation; try lra. Qed.
Lemma sumR_perm : forall l l', Permutation l l' -> sumR l = sumR l'.
Proof. induction 1; rewrite ?sumR_cons in *; auto; try rewrite IHPermutation; try lra. Qed.
Lemma list_sum_perm : forall l l', Permutation l l' -> list_sum l = list_sum l'.
Proof. induction 1; simpl; lia. Qed.

Lemma ep_perm : forall t d s s', Permutation s s' -> ewens_pitman t d s = ewens_pitman t d s'.
Proof.
  intros t d s s' H. unfold ewens_pitman. rewrite (list_sum_perm _ _ H), (Permutation_length H).
  f_equal. apply prodR_perm. apply Permutation_map. auto.
Qed.

Lemma distinct_perm : forall al al', Permutation al al' -> Permutation (distinct al) (distinct al').
Proof.
  intros al al' H. apply NoDup_Permutation; try apply distinct_nodup.
  intros x. rewrite !distinct_in. split; intros; [|apply Permutation_sym in H]; eapply Permutation_in; eauto.
Qed.

Lemma sizes_perm : forall al al', Permutation al al' -> Permutation (sizes_of al) (sizes_of al').
Proof.
  intros al al' H. unfold sizes_of.
  rewrite (map_ext _ (count_occ Nat.eq_dec al') (fun c => proj1 (Permutation_count_occ Nat.eq_dec al al') H c)).
  apply Permutation_map. apply distinct_perm. auto.
Qed.

(** Renaming the labels injectively keeps the sizes. *)
Lemma distinct_map : forall (f : nat -> nat) al, (forall x y, In x al -> In y al -> f x = f y -> x = y) ->
  distinct (map f al) = map f (distinct al).
Proof.
  intros f al. induction al as [|x l IH]; intros Hf; auto. simpl map.
  assert (Hl : distinct (map f l) = map f (distinct l)) by (apply IH; intros; apply Hf; simpl; auto).
  destruct (in_dec Nat.eq_dec x l) as [Hi|Hn].
  - rewrite !distinct_old; auto. apply in_map; auto.
  - rewrite !distinct_new; auto.
    + simpl. f_equal; auto.
    + intros C. apply in_map_iff in C. destruct C as (y & E & Hy). apply Hn.
      assert (y = x) by (apply Hf; simpl; auto). subst; auto.
Qed.

Lemma sizes_rename : forall (f : nat -> nat) al, (forall x y, In x al -> In y al -> f x = f y -> x = y) ->
  sizes_of (map f al) = sizes_of al.
Proof.
  intros f al Hf. unfold sizes_of. rewrite distinct_map by auto. rewrite map_map.
  apply map_ext_in. intros c Hc. apply (proj1 (distinct_in c al)) in Hc.
  clear - Hf Hc. 
  assert (G : forall l, incl l al -> count_occ Nat.eq_dec (map f l) (f c) = count_occ Nat.eq_dec l c).
  { induction l as [|y l IH]; intros Hl; auto. simpl.
    assert (IH' : count_occ Nat.eq_dec (map f l) (f c) = count_occ Nat.eq_dec l c)
      by (apply IH; intros z Hz; apply Hl; simpl; auto).
    rewrite IH'. destruct (Nat.eq_dec (f y) (f c)) as [E|E], (Nat.eq_dec y c) as [E'|E']; auto.
    - exfalso. apply E'. apply Hf; auto. apply Hl. simpl; auto.
    - subst. congruence. }
  apply G. intros z Hz; auto.
Qed.

(** Products of the masses. *)
Lemma py_seating : forall p0 s order p, py_init p0 = Ok s ->
  seating (fun n k => py_mass_ex s n k false false) (fun n k => py_mass_new s n k false false) order p ->
  p = ewens_pitman (py_str s) (py_dis s) (sizes_of order).
Proof.
  intros p0 s order p Hi H. destruct (py_init_ok _ _ Hi) as [Hd Ht]. clear Hi.
  induction H as [x|prev x p v Hs IH Hx Hv|prev x p v Hs IH Hx Hv].
  - rewrite ep_single. auto.
  - rewrite ep_old by auto. rewrite <- IH. f_equal. unfold py_mass_ex in Hv.
    apply (count_occ_In Nat.eq_dec) in Hx.
    destruct (Z.eqb_spec (Z.of_nat (count_occ Nat.eq_dec prev x)) 0); [lia|].
    injection Hv as <-. rewrite <- INR_IZR_INZ. auto.
  - assert (prev <> []) by (intros ->; inversion Hs).
    rewrite ep_new by auto. rewrite <- IH. f_equal. injection Hv as <-. auto.
Qed.

Lemma dp_seating : forall p0 s0 s order p, dp_init p0 s0 = Ok s ->
  seating (fun n k => dp_mass_ex s n k false false) (fun n k => dp_mass_new s n k false false) order p ->
  p = ewens_pitman (dp_tot s) 0 (sizes_of order).
Proof.
  intros p0 s0 s order p Hi H. pose proof (dp_init_pos _ _ _ Hi) as Hm. clear Hi.
  induction H as [x|prev x p v Hs IH Hx Hv|prev x p v Hs IH Hx Hv].
  - rewrite ep_single. auto.
  - rewrite ep_old by (auto; lra). rewrite <- IH. f_equal. injection Hv as <-.
    rewrite <- INR_IZR_INZ. rewrite Rminus_0_r, Rmult_1_l. auto.
  - assert (prev <> []) by (intros ->; inversion Hs).
    rewrite ep_new by (auto; lra). rewrite <- IH. f_equal. injection Hv as <-. rewrite Rmult_0_l, Rplus_0_r. auto.
Qed.

Lemma seating_total : forall ex new order, order <> [] ->
  (forall n k c, exists v, ex n k c = Ok (Fin v)) -> (forall n k, exists v, new n k = Ok (Fin v)) ->
  exists p, seating ex new order p.
Proof.
  intros ex new order. induction order as [|x prev IH]; intros Hne Hex Hnew; [congruence|].
  destruct prev as [|y prev].
  - exists 1. constructor.
  - destruct IH as [p Hp]; auto; [discriminate|].
    destruct (in_dec Nat.eq_dec x (y :: prev)) as [Hi|Hn].
    + destruct (Hex (length (y :: prev)) (length (distinct (y :: prev))) (Z.of_nat (count_occ Nat.eq_dec (y :: prev) x))) as [v Hv].
      exists (p * v). apply seat_old; auto.
    + destruct (Hnew (length (y :: prev)) (length (distinct (y :: prev)))) as [v Hv].
      exists (p * v). apply seat_new; auto.
Qed.

Lemma py_lin_total : forall s n k, (forall c, exists v, py_mass_ex s n k false false c = Ok (Fin v)) /\
  exists v, py_mass_new s n k false false = Ok (Fin v).
Proof.
  intros s n k. split; [intros c|]; unfold py_mass_ex, py_mass_new; try destruct (Z.eqb c 0); eauto.
Qed.
Lemma dp_lin_total : forall s n k, (forall c, exists v, dp_mass_ex s n k false false c = Ok (Fin v)) /\
  exists v, dp_mass_new s n k false false = Ok (Fin v).
Proof. intros s n k. split; [intros c|]; unfold dp_mass_ex, dp_mass_new; eauto. Qed.

Lemma py_exchangeable : forall p0 s order order', py_init p0 = Ok s -> order <> [] -> Permutation order order' ->
  exists p,
    seating (fun n k => py_mass_ex s n k false false) (fun n k => py_mass_new s n k false false) order p /\
    seating (fun n k => py_mass_ex s n k false false) (fun n k => py_mass_new s n k false false) order' p /\
    p = ewens_pitman (py_str s) (py_dis s) (sizes_of order).
Proof.
  intros p0 s order order' Hi Hne HP.
  assert (T : forall o, o <> [] -> exists p, seating (fun n k => py_mass_ex s n k false false) (fun n k => py_mass_new s n k false false) o p).
  { intros o Ho. apply seating_total; auto; intros; apply py_lin_total. }
  destruct (T order Hne) as [p Hp].
  destruct (T order') as [p' Hp']. { intros ->. apply Hne. apply Permutation_sym, Permutation_nil in HP. auto. }
  pose proof (py_seating _ _ _ _ Hi Hp) as E. pose proof (py_seating _ _ _ _ Hi Hp') as E'.
  exists p. split; [auto|]. split; [|auto].
  replace p with p'; auto. rewrite E, E'. apply ep_perm. apply sizes_perm. apply Permutation_sym. auto.
Qed.

Lemma dp_exchangeable : forall p0 s0 s order order', dp_init p0 s0 = Ok s -> order <> [] -> Permutation order order' ->
  exists p,
    seating (fun n k => dp_mass_ex s n k false false) (fun n k => dp_mass_new s n k false false) order p /\
    seating (fun n k => dp_mass_ex s n k false false) (fun n k => dp_mass_new s n k false false) order' p /\
    p = ewens_pitman (dp_tot s) 0 (sizes_of order).
Proof.
  intros p0 s0 s order order' Hi Hne HP.
  assert (T : forall o, o <> [] -> exists p, seating (fun n k => dp_mass_ex s n k false false) (fun n k => dp_mass_new s n k false false) o p).
  { intros o Ho. apply seating_total; auto; intros; apply dp_lin_total. }
  destruct (T order Hne) as [p Hp].
  destruct (T order') as [p' Hp']. { intros ->. apply Hne. apply Permutation_sym, Permutation_nil in HP. auto. }
  pose proof (dp_seating _ _ _ _ _ Hi Hp) as E. pose proof (dp_seating _ _ _ _ _ Hi Hp') as E'.
  exists p. split; [auto|]. split; [|auto].
  replace p with p'; auto. rewrite E, E'. apply ep_perm. apply sizes_perm. apply Permutation_sym. auto.
Qed.
