(** * Semi-HDP: [relabel] keeps every observation's parameters and leaves no
    empty table. *)
From Coq Require Import String.
From Coq Require Import Bool List Arith ZArith Reals Lia Permutation.
From Verif Require Import Base XReal Semi SemiWp SemiSpec SemiCount SemiInv SemiInv2 SemiInv3.
Import ListNotations.
Local Open Scope nat_scope.

(** The index left for [x] when position [l] goes. *)
Definition dn (l x : nat) : nat := if l <=? x then x - 1 else x.

Lemma nth_del : forall A (l : list A) i j d, nth j (del l i) d = nth (if j <? i then j else S j) l d.
Proof.
  induction l as [|a l IH]; intros i j d.
  - simpl. destruct j, (_ <? i); reflexivity.
  - destruct i; simpl del.
    + destruct j; reflexivity.
    + destruct j; [reflexivity|]. cbn [nth]. rewrite IH.
      replace (S j <? S i) with (j <? i) by (destruct (Nat.ltb_spec j i), (Nat.ltb_spec (S j) (S i)); auto; lia).
      destruct (j <? i); reflexivity.
Qed.

Lemma nth_del_dn : forall A (l : list A) i x d, x <> i -> nth (dn i x) (del l i) d = nth x l d.
Proof.
  intros A l i x d N. rewrite nth_del. unfold dn. destruct (Nat.leb_spec i x).
  - destruct (Nat.ltb_spec (x - 1) i); [lia|]. replace (S (x - 1)) with x by lia. reflexivity.
  - destruct (Nat.ltb_spec x i); [reflexivity|lia].
Qed.

Lemma del_len : forall A (l : list A) i, i < length l -> length (del l i) = length l - 1.
Proof. intros. rewrite del_length by auto. lia. Qed.

Lemma del_map : forall A B (f : A -> B) l i, del (map f l) i = map f (del l i).
Proof. intros A B f. induction l as [|a l IH]; intros [|i]; simpl; auto. f_equal. apply IH. Qed.

Lemma Forall_del : forall A (Pr : A -> Prop) l i, Forall Pr l -> Forall Pr (del l i).
Proof. intros A Pr. induction l as [|a l IH]; intros [|i] H; simpl; auto; inversion H; subst; auto. Qed.

Lemma in_del : forall A (l : list A) i x, In x (del l i) -> In x l.
Proof. intros A. induction l as [|a l IH]; intros [|i] x H; simpl in *; auto. destruct H; auto. right. eapply IH; eauto. Qed.

Lemma NoDup_del : forall A (l : list A) i, NoDup l -> NoDup (del l i).
Proof.
  intros A. induction l as [|a l IH]; intros [|i] H; simpl; auto; inversion H; subst; auto. constructor; auto. intros X. apply in_del in X. contradiction.
Qed.

Lemma somes_del_None : forall A (l : list (option A)) i, nth i l None = None -> somes (del l i) = somes l.
Proof.
  intros A. induction l as [|a l IH]; intros [|i] E; simpl in *; auto; unfold somes in *; simpl.
  - subst. reflexivity.
  - f_equal. apply IH. auto.
Qed.

Lemma somes_cons : forall A (a : option A) l, somes (a :: l) = somes [a] ++ somes l.
Proof. intros A [a|] l; reflexivity. Qed.

Lemma somes_del_Some : forall A (l : list (option A)) i k, nth i l None = Some k -> Permutation (somes l) (k :: somes (del l i)).
Proof.
  intros A. induction l as [|a l IH]; intros [|i] k E; simpl in E; try discriminate.
  - subst. simpl. apply Permutation_refl.
  - cbn [del]. rewrite (somes_cons _ a l), (somes_cons _ a (del l i)).
    eapply Permutation_trans; [apply Permutation_app_head; apply IH; exact E|]. apply Permutation_sym, Permutation_middle.
Qed.

Lemma somes_map : forall A B (f : A -> B) l, somes (map (option_map f) l) = map f (somes l).
Proof. intros A B f. induction l as [|[a|] l IH]; simpl; auto. unfold somes in *. simpl. f_equal. exact IH. Qed.

Lemma dec_gt_dn : forall k o, dec_gt k o = option_map (fun x => if k <? x then x - 1 else x) o.
Proof. intros k [x|]; reflexivity. Qed.
Lemma dec_ge_dn : forall k o, dec_ge k o = option_map (dn k) o.
Proof. intros k [x|]; reflexivity. Qed.

Lemma map_dec_seq : forall k n, k < n ->
  map (fun x => if k <? x then x - 1 else x) (seq 0 k ++ seq (S k) (n - 1 - k)) = seq 0 (n - 1).
Proof.
  intros k n H. rewrite map_app.
  replace (seq 0 (n - 1)) with (seq 0 k ++ seq k (n - 1 - k)) by (rewrite <- seq_app; f_equal; lia).
  f_equal.
  - erewrite map_ext_in; [apply map_id|]. intros x Hx. apply in_seq in Hx. destruct (Nat.ltb_spec k x); lia.
  - rewrite <- seq_shift, map_map. erewrite map_ext_in; [apply map_id|]. intros x Hx. apply in_seq in Hx. destruct (Nat.ltb_spec k (S x)); lia.
Qed.

Lemma nth_map_None : forall A B (f : A -> B) l i, nth i (map (option_map f) l) None = option_map f (nth i l None).
Proof. intros A B f l i. apply (map_nth (option_map f) l None i). Qed.

(** Removing table [l] of one restaurant. *)
Lemma row_ok_del : forall hn sn rt pv ts tp l, row_ok hn sn rt pv ts tp -> l < length rt ->
  let '(pv', tp') := match nth l tp None with
                     | Some k => (del pv k, map (dec_gt k) tp)
                     | None => (pv, tp)
                     end in
  row_ok hn sn (del rt l) pv' (del ts l) (del tp' l).
Proof.
  intros hn sn rt pv ts tp l H Hl. pose proof (fun l k => row_priv_lt _ _ _ _ _ _ l k H) as Hp.
  assert (Nd : NoDup (somes tp)) by (eapply Permutation_NoDup; [apply Permutation_sym, (ro_bij _ _ _ _ _ _ H)|apply seq_NoDup]).
  destruct H as [A B C D E F G].
  assert (Hs : forall j, j < length (del rt l) -> (if j <? l then j else S j) < length rt).
  { intros j Hj. rewrite del_len in Hj by auto. destruct (Nat.ltb_spec j l); lia. }
  destruct (nth l tp None) as [k|] eqn:El.
  - assert (Hk : k < length pv) by (apply (Hp l); auto).
    rewrite (map_ext _ _ (dec_gt_dn k)).
    set (dk := fun x => if k <? x then x - 1 else x) in *.
    constructor; auto using Forall_del.
    + rewrite !del_len; lia.
    + rewrite !del_len; rewrite ?map_length; lia.
    + intros j Hj. apply Hs in Hj. rewrite !nth_del, nth_map_None. specialize (E _ Hj).
      destruct (nth _ tp None), (nth _ ts None); simpl; auto.
    + rewrite del_map, somes_map. rewrite del_len by auto.
      unfold dk. rewrite <- (map_dec_seq k) by auto. apply Permutation_map.
      apply Permutation_cons_inv with (a := k).
      eapply Permutation_trans; [apply Permutation_sym, somes_del_Some; exact El|].
      eapply Permutation_trans; [exact F|].
      replace (seq 0 (length pv)) with (seq 0 k ++ k :: seq (S k) (length pv - 1 - k)).
      * apply Permutation_sym, Permutation_middle.
      * replace (length pv) with (k + S (length pv - 1 - k)) at 2 by lia. rewrite seq_app. reflexivity.
    + intros j k' Hj. assert (Hj' := Hs _ Hj). rewrite !nth_del, nth_map_None. set (j' := if j <? l then j else S j) in *.
      destruct (nth j' tp None) as [k0|] eqn:E0; [|discriminate]. simpl. intros X. injection X as <-.
      assert (Nk : k0 <> k).
      { intros ->. assert (j' <> l) by (unfold j'; destruct (Nat.ltb_spec j l); lia).
        pose proof (somes_del_Some _ tp l k El) as Pm. apply (Permutation_NoDup Pm) in Nd. inversion Nd as [|? ? Nin _]; subst. apply Nin.
        apply somes_in. rewrite <- E0, <- (nth_del_dn _ tp l j' None) by auto. apply nth_In. rewrite del_len by lia. unfold dn.
        destruct (Nat.leb_spec l j'); lia. }
      rewrite (G j' k0) by auto. unfold dk. destruct (Nat.ltb_spec k k0).
      * destruct (Nat.ltb_spec (k0 - 1) k); [lia|]. replace (S (k0 - 1)) with k0 by lia. reflexivity.
      * destruct (Nat.ltb_spec k0 k); [reflexivity|lia].
  - constructor; auto using Forall_del.
    + rewrite !del_len; lia.
    + rewrite !del_len; lia.
    + intros j Hj. apply Hs in Hj. rewrite !nth_del. apply E. auto.
    + rewrite somes_del_None; auto.
    + intros j k' Hj. apply Hs in Hj. rewrite !nth_del. apply G. auto.
Qed.

Section Rel.
Variable I : SH.
Variable P : params.
Variable data : list (list (Datum I)).
Notation sst := (sst I).
Notation ng := (length data).
Notation wf := (wf I data).
Hypothesis Hcols : cols I = 1.
Hypothesis Hdata : forall d, In d data -> d <> [].

Notation seated := (seated I data).

(** [s'] is [s] with tables renamed by [ft]; unseated tables may be gone. *)
Record reidx (s s' : sst) (ft : nat -> nat -> nat) : Prop := {
  re_heap : s_heap I s' = s_heap I s;
  re_shared : s_shared I s' = s_shared I s;
  re_n : s_n I s' = s_n I s;
  re_ra : s_ra I s' = s_ra I s;
  re_used : s_used I s' = s_used I s;
  re_conc : s_conc I s' = s_conc I s;
  re_w : s_w I s' = s_w I s;
  re_restp : s_restp I s' = s_restp I s;
  re_np : s_np I s' = s_np I s;
  re_tab : forall i, i < ng -> nth i (s_tab I s') [] = map (ft (nth i (s_ra I s) 0)) (nth i (s_tab I s) []);
  re_keep : forall r t, r < ng -> In t (seated s r) ->
    ft r t < length (nth r (s_rest I s') []) /\
    nth (ft r t) (nth r (s_rest I s') []) 0 = nth t (nth r (s_rest I s) []) 0 /\
    nth (ft r t) (nth r (s_ts I s') []) None = nth t (nth r (s_ts I s) []) None /\
    (nth (ft r t) (nth r (s_tp I s') []) None = None <-> nth t (nth r (s_tp I s) []) None = None);
  re_mono : forall r t u, r < ng -> In t (seated s r) -> In u (seated s r) -> t < u -> ft r t < ft r u
}.

Lemma seated_in : forall s r t, In t (seated s r) <-> exists i, i < ng /\ nth i (s_ra I s) 0 = r /\ In t (nth i (s_tab I s) []).
Proof.
  intros s r t. unfold SemiSpec.seated. rewrite in_flat_map. split.
  - intros (i & Hi & X). apply in_seq0 in Hi. exists i. split; auto. destruct (Nat.eqb_spec (nth i (s_ra I s) 0) r); [auto|destruct X].
  - intros (i & Hi & E & X). exists i. split; [apply in_seq; lia|]. apply Nat.eqb_eq in E. rewrite E. auto.
Qed.

Lemma seated_lt : forall s r t, wf s -> In t (seated s r) -> t < length (nth r (s_rest I s) []).
Proof.
  intros s r t H X. apply seated_in in X. destruct X as (i & Hi & E & X). destruct (wf_tab _ _ _ H i Hi) as [_ F].
  rewrite E in F. rewrite Forall_forall in F. auto.
Qed.

Lemma flat_map_ext_in : forall A B (f g : A -> list B) l, (forall x, In x l -> f x = g x) -> flat_map f l = flat_map g l.
Proof. intros A B f g. induction l as [|a l IH]; intros H; simpl; auto. rewrite H by (left; auto). f_equal. apply IH. intros; apply H; right; auto. Qed.

Lemma map_flat_map : forall A B C (f : A -> list B) (g : B -> C) l, map g (flat_map f l) = flat_map (fun x => map g (f x)) l.
Proof. intros A B C f g. induction l as [|a l IH]; simpl; auto. rewrite map_app, IH. reflexivity. Qed.

Lemma reidx_seated : forall s s' ft r, reidx s s' ft -> seated s' r = map (ft r) (seated s r).
Proof.
  intros s s' ft r R. unfold SemiSpec.seated. rewrite map_flat_map. apply flat_map_ext_in. intros i Hi. apply in_seq0 in Hi.
  rewrite (re_ra _ _ _ R). destruct (Nat.eqb_spec (nth i (s_ra I s) 0) r) as [E|_]; auto. rewrite (re_tab _ _ _ R i Hi), E. reflexivity.
Qed.

Lemma reidx_refl : forall s, wf s -> reidx s s (fun _ t => t).
Proof.
  intros s H. constructor; auto.
  - intros i Hi. rewrite map_id. reflexivity.
  - intros r t Hr X. split; [apply seated_lt; auto|]. tauto.
Qed.

Lemma reidx_trans : forall a b c f g, reidx a b f -> reidx b c g -> reidx a c (fun r t => g r (f r t)).
Proof.
  intros a b c f g F G.
  assert (Hin : forall r t, In t (seated a r) -> In (f r t) (seated b r)).
  { intros r t X. rewrite (reidx_seated _ _ _ _ F). apply in_map. auto. }
  constructor; try (etransitivity; [apply G|apply F]).
  - intros i Hi. rewrite (re_tab _ _ _ G i Hi), (re_tab _ _ _ F i Hi), map_map, (re_ra _ _ _ F). reflexivity.
  - intros r t Hr X. destruct (re_keep _ _ _ F r t Hr X) as (A1 & A2 & A3 & A4). destruct (re_keep _ _ _ G r _ Hr (Hin _ _ X)) as (B1 & B2 & B3 & B4).
    split; auto. split; [congruence|]. split; [congruence|tauto].
  - intros r t u Hr X Y L. apply (re_mono _ _ _ G); auto. apply (re_mono _ _ _ F); auto.
Qed.

(** ** The loops of [relabel] *)

Definition grp (s : sst) (r : nat) : list nat := filter (fun i => nth i (s_ra I s) 0 =? r) (seq 0 ng).

Lemma ok_members : forall s r (Q : list nat -> Prop), length (s_ra I s) = ng -> Q (grp s r) -> ok (members I data s r) Q.
Proof.
  intros s r Q L HQ. unfold members.
  apply ok_for with (Inv := fun m acc => acc = filter (fun i => nth i (s_ra I s) 0 =? r) (seq 0 m)); auto.
  - intros m acc Hm ->. change (m < ng) in Hm. apply ok_bind. apply ok_at with (d := 0); [lia|]. cbn [ok].
    rewrite seq_S, filter_app. cbn [Nat.add filter]. destruct (nth m (s_ra I s) 0 =? r); auto. rewrite app_nil_r. reflexivity.
  - intros acc ->. exact HQ.
Qed.

Lemma grp_in : forall s r i, In i (grp s r) <-> i < ng /\ nth i (s_ra I s) 0 = r.
Proof.
  intros s r i. unfold grp. rewrite filter_In, in_seq, Nat.eqb_eq. split; intros [A B]; split; auto; lia.
Qed.

Lemma ok_mark_used : forall s r (Q : list bool -> Prop), wf s -> r < ng ->
  (forall u, length u = length (nth r (s_rest I s) []) -> (forall l, nth l u false = true <-> In l (seated s r)) -> Q u) ->
  ok (mark_used I data s r (grp s r)) Q.
Proof.
  intros s r Q H Hr HQ. unfold mark_used. apply ok_bind. apply ok_at with (d := []); [rewrite (wf_rest _ _ _ H); auto|].
  set (K := length (nth r (s_rest I s) [])).
  apply ok_rfold with (Inv := fun m acc => length acc = K /\ forall l, nth l acc false = true <-> exists i, In i (firstn m (grp s r)) /\ In l (nth i (s_tab I s) [])).
  - rewrite repeat_length. split; auto. intros l. rewrite nth_repeat. simpl. split; [discriminate|]. intros (i & [] & _).
  - intros m acc i Hi [La Ha].
    assert (Hm : m < length (grp s r)) by (apply nth_error_Some; congruence).
    assert (Ei : nth m (grp s r) 0 = i) by (rewrite (nth_error_nth' _ 0 Hm) in Hi; congruence).
    assert (Hin : In i (grp s r)) by (rewrite <- Ei; apply nth_In; auto). apply grp_in in Hin. destruct Hin as [Hi' Er].
    destruct (wf_tab _ _ _ H i Hi') as [Lt Ft]. rewrite Er in Ft. fold K in Ft.
    apply ok_bind. apply ok_nby; auto.
    apply ok_for with (Inv := fun j acc' => length acc' = K /\ forall l, nth l acc' false = true <-> nth l acc false = true \/ In l (firstn j (nth i (s_tab I s) []))).
    + split; auto. intros l. simpl. tauto.
    + intros j acc' Hj [La' Ha']. apply ok_bind. apply ok_at2 with (d := 0); [rewrite (wf_tabl _ _ _ H); auto|lia|].
      pose proof (Forall_nth' _ _ 0 _ j Ft ltac:(lia)) as Hlt. cbv beta in Hlt.
      apply ok_set; [lia|]. rewrite upd_length. split; auto. intros l. rewrite (firstn_snoc _ 0) by lia. rewrite in_app_iff, nth_upd, La'.
      apply Nat.ltb_lt in Hlt. rewrite Hlt, andb_true_r. destruct (Nat.eqb_spec l (nth j (nth i (s_tab I s) []) 0)) as [->|N].
      * split; [intros _; right; right; left; reflexivity|reflexivity].
      * rewrite Ha'. simpl. split; [tauto|]. intros [X|[X|[X|[]]]]; auto; congruence.
    + intros acc' [La' Ha']. split; auto. intros l. rewrite Ha'. rewrite <- Lt, firstn_all, Ha, (firstn_snoc _ 0) by auto. split.
      * intros [(i0 & X & Y)|X]; [exists i0; split; [apply in_app_iff; auto|auto]|]. exists i. split; auto. apply in_app_iff. right. left. auto.
      * intros (i0 & X & Y). apply in_app_iff in X. destruct X as [X|[X|[]]]; [left; eauto|right]. congruence.
  - intros u [Lu Hu]. rewrite firstn_all in Hu. apply HQ; auto. intros l. rewrite Hu, seated_in. split.
    + intros (i & X & Y). apply grp_in in X. exists i. tauto.
    + intros (i & X & Y & Z). exists i. rewrite grp_in. tauto.
Qed.

Lemma list_max_lt : forall l n, l <> [] -> Forall (fun x => x < n) l -> list_max l < n.
Proof.
  intros l n Hl F. apply Nat.lt_nge. intros X. destruct (list_max l) eqn:E.
  - destruct l; [congruence|]. inversion F; subst. lia.
  - assert (list_max l <= n0 -> False) by lia. apply H. apply list_max_le. eapply Forall_impl; [|exact F]. simpl. intros; lia.
Qed.

Lemma ok_relabel_groups : forall r l groups s (Q : sst -> Prop), NoDup groups -> r < length (s_rest I s) ->
  length (s_tab I s) = ng ->
  (forall i, In i groups -> i < ng /\ length (nth i (s_tab I s) []) = length (nth i data []) /\
      Forall (fun t => dn l t < length (nth r (s_rest I s) [])) (nth i (s_tab I s) [])) ->
  (forall tab, length tab = ng -> (forall i, nth i tab [] = if existsb (Nat.eqb i) groups then map (dn l) (nth i (s_tab I s) []) else nth i (s_tab I s) []) ->
     Q (w_tab I tab s)) ->
  ok (rfold (relabel_group I data r l) groups s) Q.
Proof.
  intros r l. induction groups as [|i groups IH]; intros s Q Nd Hr Lt Hg HQ; cbn [rfold].
  - cbn [ok]. replace s with (w_tab I (s_tab I s) s) by (destruct s; reflexivity). apply HQ; auto.
  - inversion Nd as [|? ? Ni Nd']; subst. destruct (Hg i (or_introl eq_refl)) as (Hi & Li & Fi).
    assert (Hne : nth i (s_tab I s) [] <> []).
    { intros E. rewrite E in Li. assert (X : nth i data [] <> []) by (apply Hdata; apply nth_In; auto). destruct (nth i data []); [congruence|discriminate]. }
    apply ok_bind. unfold relabel_group. apply ok_bind. apply ok_nby; auto. apply ok_bind. apply ok_at with (d := []); [lia|].
    rewrite <- Li, Nat.ltb_irrefl, firstn_all, skipn_all, app_nil_r. apply ok_bind. apply ok_set; [lia|].
    apply ok_bind. apply ok_at with (d := []); auto.
    change (fun t => if l <=? t then t - 1 else t) with (dn l).
    set (ta := map (dn l) (nth i (s_tab I s) [])).
    assert (Hta : ta <> []) by (unfold ta; destruct (nth i (s_tab I s) []); [congruence|discriminate]).
    assert (Hmx : list_max ta < length (nth r (s_rest I s) [])).
    { apply list_max_lt; auto. unfold ta. apply Forall_map. exact Fi. }
    destruct ta as [|a ta'] eqn:Eta; [congruence|]. rewrite <- Eta in *.
    destruct (Nat.leb_spec (length (nth r (s_rest I s) [])) (list_max ta)); [lia|]. cbn [ok].
    apply IH; auto.
    + cbn. rewrite upd_length. auto.
    + intros i' Hi'. assert (i' <> i) by (intros ->; contradiction). cbn. rewrite nth_upd_other by auto. apply Hg. right. auto.
    + cbn [w_tab s_tab]. intros tab L X. change (w_tab I tab (w_tab I ?u s)) with (w_tab I tab s). apply HQ; auto.
      intros i'. rewrite X. cbn [existsb]. rewrite nth_upd. rewrite Lt. apply Nat.ltb_lt in Hi. rewrite Hi, andb_true_r.
      destruct (Nat.eqb_spec i' i) as [->|N]; cbn [orb]; auto.
      destruct (existsb (Nat.eqb i) groups) eqn:E; [|subst ta; rewrite Eta; reflexivity]. apply existsb_in in E. contradiction.
Qed.

Definition only (r : nat) (f : nat -> nat) (r' : nat) : nat -> nat := if r' =? r then f else fun t => t.

Lemma grp_reidx : forall s s' ft r, reidx s s' ft -> grp s' r = grp s r.
Proof. intros s s' ft r R. unfold grp. rewrite (re_ra _ _ _ R). reflexivity. Qed.

Lemma ok_drop_table : forall s r used l (Q : sst -> Prop), wf s -> r < ng -> l < length (nth r (s_rest I s) []) -> l < length used ->
  nth l used false = false -> ~ In l (seated s r) ->
  (forall s', wf s' -> reidx s s' (only r (dn l)) -> length (nth r (s_rest I s') []) = length (nth r (s_rest I s) []) - 1 ->
     (forall r', r' <> r -> nth r' (s_rest I s') [] = nth r' (s_rest I s) []) -> Q s') ->
  ok (drop_table I data r (grp s r) used s l) Q.
Proof.
  intros s r used l Q H Hr Hl Hu Eu Nin HQ. unfold drop_table. apply ok_bind. apply ok_at with (d := false); auto. rewrite Eu.
  pose proof (wf_rest _ _ _ H) as B1. pose proof (wf_privl _ _ _ H) as B2. pose proof (wf_tsl _ _ _ H) as B3. pose proof (wf_tpl _ _ _ H) as B4.
  pose proof (wf_tabl _ _ _ H) as B5.
  pose proof (wf_row _ _ _ H r Hr) as R. pose proof (ro_ts _ _ _ _ _ _ R) as R1. pose proof (ro_tp _ _ _ _ _ _ R) as R2.
  pose proof (row_ok_del _ _ _ _ _ _ l R Hl) as Rd.
  apply ok_bind. apply ok_at with (d := []); [lia|]. apply ok_bind. apply ok_erase; auto. apply ok_bind. apply ok_set; [lia|].
  apply ok_bind. apply ok_at with (d := []); [lia|]. apply ok_bind. apply ok_at with (d := None); [lia|].
  set (rt' := del (nth r (s_rest I s) []) l) in *.
  assert (Lrt : length rt' = length (nth r (s_rest I s) []) - 1) by (apply del_len; auto).
  apply ok_bind.
  set (X := match nth l (nth r (s_tp I s) []) None with Some k => (del (nth r (s_priv I s) []) k, map (dec_gt k) (nth r (s_tp I s) [])) | None => (nth r (s_priv I s) [], nth r (s_tp I s) []) end) in Rd.
  apply ok_mono with (Q := fun q => length (fst q) = ng /\ (forall r', nth r' (fst q) [] = if r' =? r then fst X else nth r' (s_priv I s) []) /\ snd q = snd X).
  { unfold X. destruct (nth l (nth r (s_tp I s) []) None) as [k|] eqn:E.
    - apply ok_bind. apply ok_at with (d := []); [lia|]. apply ok_bind. apply ok_erase; [eapply row_priv_lt; [exact R|exact Hl|exact E]|].
      apply ok_bind. apply ok_set; [lia|]. cbn [ok fst snd]. rewrite upd_length. split; auto. split; auto.
      intros r'. apply nth_upd_row with (n := ng); auto.
    - cbn [ok fst snd]. split; auto. split; auto. intros r'. destruct (Nat.eqb_spec r' r) as [->|N]; auto. }
  intros [priv tpr1] (Lp & Hp & Etp). cbn [fst snd] in *. subst tpr1. destruct X as [pv' tp'] eqn:EX. cbn [fst snd] in *.
  assert (Ltp : length tp' = length (nth r (s_rest I s) [])).
  { unfold X in EX. destruct (nth l (nth r (s_tp I s) []) None); injection EX as <- <-; rewrite ?map_length; auto. }
  assert (Htp : forall x, nth x tp' None = None <-> nth x (nth r (s_tp I s) []) None = None).
  { intros x. unfold X in EX. destruct (nth l (nth r (s_tp I s) []) None) as [k|]; injection EX as <- <-; [|tauto].
    rewrite (map_ext _ _ (dec_gt_dn k)), nth_map_None. destruct (nth x (nth r (s_tp I s) []) None); simpl; split; congruence. }
  assert (Al : alias_ok priv (s_restp I s) (s_shared I s)).
  { pose proof (wf_own _ _ _ H) as Al. apply (alias_sub _ _ _ _ _ Al); auto; [| |apply Al].
    - intros r'. rewrite Hp. destruct (r' =? r); [|apply Al]. unfold X in EX.
      destruct (nth l (nth r (s_tp I s) []) None); injection EX as <- <-; [apply NoDup_del|]; apply Al.
    - intros r' o Y. left. rewrite Hp in Y. destruct (Nat.eqb_spec r' r) as [->|N]; auto. unfold X in EX.
      destruct (nth l (nth r (s_tp I s) []) None); injection EX as <- <-; auto. eapply in_del; eauto. }
  apply ok_bind. apply ok_erase; [lia|]. apply ok_bind. apply ok_set; [lia|]. apply ok_bind. apply ok_at with (d := []); [lia|].
  apply ok_bind. apply ok_erase; [lia|]. apply ok_bind. apply ok_set; [lia|].
  assert (Hrr : forall A (v : list (list A)) x r', length v = ng -> nth r' (upd v r x) [] = if r' =? r then x else nth r' v []).
  { intros A v x r' L. apply nth_upd_row with (n := ng); auto. }
  apply ok_relabel_groups; cbn [w_ts w_tp w_priv w_rest s_rest s_tab]; auto.
  - unfold grp. apply NoDup_filter, seq_NoDup.
  - rewrite upd_length. lia.
  - intros i Hi. apply grp_in in Hi. destruct Hi as [Hi Er]. destruct (wf_tab _ _ _ H i Hi) as [Lt Ft]. split; auto. split; auto.
    rewrite Hrr by auto. rewrite Nat.eqb_refl, Lrt. rewrite Forall_forall in Ft |- *. intros t Ht. specialize (Ft t Ht). rewrite Er in Ft.
    assert (t <> l). { intros ->. apply Nin. apply seated_in. eauto. }
    unfold dn. destruct (Nat.leb_spec l t); lia.
  - intros tab Lt Ht.
    assert (Htab : forall i, i < ng -> nth i tab [] = map (only r (dn l) (nth i (s_ra I s) 0)) (nth i (s_tab I s) [])).
    { intros i Hi. rewrite Ht. unfold only. destruct (Nat.eqb_spec (nth i (s_ra I s) 0) r) as [E|N].
      - assert (X1 : existsb (Nat.eqb i) (grp s r) = true) by (apply existsb_in, grp_in; auto). rewrite X1. reflexivity.
      - destruct (existsb (Nat.eqb i) (grp s r)) eqn:X1; [apply existsb_in, grp_in in X1; tauto|]. rewrite map_id. reflexivity. }
    assert (Hne : forall t, In t (seated s r) -> t <> l) by (intros t X1 ->; contradiction).
    apply HQ.
    + destruct H; constructor; cbn; rewrite ?upd_length; auto.
      * intros r' Hr'. rewrite !Hrr, Hp by auto. destruct (r' =? r); auto.
      * intros i Hi. rewrite Htab by auto. rewrite map_length. destruct (wf_tab i Hi) as [W1 W2]. split; auto. apply Forall_map. apply Forall_forall.
        intros t X1. rewrite Forall_forall in W2. specialize (W2 t X1). rewrite Hrr by auto. unfold only.
        destruct (Nat.eqb_spec (nth i (s_ra I s) 0) r) as [E|N]; auto. rewrite Lrt. rewrite E in W2.
        assert (t <> l) by (apply Hne, seated_in; eauto). unfold dn. destruct (Nat.leb_spec l t); lia.
      * intros r' Hr'. rewrite Hrr by auto. specialize (wf_n r' Hr'). destruct (Nat.eqb_spec r' r) as [->|N]; auto. lia.
    + constructor; auto.
      * intros r' t Hr' X1. cbn. rewrite !Hrr by auto. unfold only. destruct (Nat.eqb_spec r' r) as [->|N].
        -- pose proof (Hne t X1). pose proof (seated_lt _ _ _ H X1). unfold rt'. rewrite !nth_del_dn by auto. split; [|split; auto].
           rewrite del_len by auto. unfold dn. destruct (Nat.leb_spec l t); lia.
        -- split; [apply (seated_lt _ _ _ H X1)|tauto].
      * intros r' t u Hr' X1 X2 L. unfold only. destruct (Nat.eqb_spec r' r) as [->|N]; auto.
        pose proof (Hne t X1). pose proof (Hne u X2). unfold dn. destruct (Nat.leb_spec l t), (Nat.leb_spec l u); lia.
    + cbn. rewrite Hrr by auto. rewrite Nat.eqb_refl. exact Lrt.
    + intros r' N. cbn. rewrite Hrr by auto. apply Nat.eqb_neq in N. rewrite N. reflexivity.
Qed.

Lemma ok_relabel_rest : forall s r (Q : sst -> Prop), wf s -> r < ng ->
  (forall s' f, wf s' -> reidx s s' (only r f) -> (forall l, l < length (nth r (s_rest I s') []) -> In l (seated s' r)) ->
     (forall r', r' <> r -> nth r' (s_rest I s') [] = nth r' (s_rest I s) []) -> Q s') ->
  ok (relabel_rest I data s r) Q.
Proof.
  intros s r Q H Hr HQ. unfold relabel_rest. apply ok_bind. apply ok_members; [apply (wf_ral _ _ _ H)|].
  apply ok_bind. apply ok_mark_used; auto. intros used Lu Hu. rewrite Lu.
  apply ok_down with (Inv := fun k s' => exists f, wf s' /\ reidx s s' (only r f) /\
     (forall r', r' <> r -> nth r' (s_rest I s') [] = nth r' (s_rest I s) []) /\
     (forall t, t < k -> f t = t) /\ (forall t, In t (seated s r) -> k <= t -> k <= f t) /\ k <= length (nth r (s_rest I s') []) /\
     (forall l, k <= l -> l < length (nth r (s_rest I s') []) -> In l (seated s' r))).
  - exists (fun t => t). split; auto. split.
    { pose proof (reidx_refl s H) as X. destruct X; constructor; auto; unfold only.
      - intros i Hi. destruct (_ =? r); rewrite map_id; auto.
      - intros r' t Hr' X. destruct (r' =? r); auto.
      - intros r' t u Hr' X Y L. destruct (r' =? r); auto. }
    do 4 (split; auto). intros l A B. lia.
  - intros l s1 Hl (f & W & R & Ho & F1 & F2 & F3 & F4).
    destruct (nth l used false) eqn:Eu.
    + unfold drop_table. apply ok_bind. apply ok_at with (d := false); [lia|]. rewrite Eu. cbn [ok]. exists f. split; auto. split; auto. split; auto.
      split; [intros; apply F1; lia|]. split; [|split; [lia|]].
      * intros t X Y. destruct (Nat.eq_dec t l) as [->|N]; [rewrite F1; lia|]. specialize (F2 t X ltac:(lia)). lia.
      * intros l' A B. destruct (Nat.eq_dec l' l) as [->|N]; [|apply F4; auto; lia].
        apply Hu in Eu. rewrite (reidx_seated _ _ _ _ R). apply in_map_iff. exists l. split; auto.
        unfold only. rewrite Nat.eqb_refl. apply F1. lia.
    + rewrite <- (grp_reidx _ _ _ r R). apply ok_drop_table; auto; try lia.
      * intros X. rewrite (reidx_seated _ _ _ _ R) in X. unfold only in X. rewrite Nat.eqb_refl in X. apply in_map_iff in X.
        destruct X as (t & E & X). assert (t <> l). { intros ->. apply Hu in X. congruence. }
        destruct (Nat.lt_ge_cases t l) as [A|A]; [rewrite F1 in E by lia; lia|]. specialize (F2 t X ltac:(lia)). lia.
      * intros s2 W2 R2 L2 Ho2. exists (fun t => dn l (f t)). split; auto. split.
        { pose proof (reidx_trans _ _ _ _ _ R R2) as X. destruct X; constructor; auto; unfold only in *.
          - intros i Hi. rewrite re_tab0 by auto. destruct (_ =? r); auto.
          - intros r' t Hr' X. specialize (re_keep0 r' t Hr' X). destruct (r' =? r); auto.
          - intros r' t u Hr' X Y L. specialize (re_mono0 r' t u Hr' X Y L). destruct (r' =? r); auto. }
        split; [intros r' N; rewrite Ho2, Ho; auto|]. split; [|split; [|split]].
        -- intros t Ht. rewrite F1 by lia. unfold dn. destruct (Nat.leb_spec l t); lia.
        -- intros t X Y. assert (t <> l). { intros ->. apply Hu in X. congruence. } specialize (F2 t X ltac:(lia)). unfold dn.
           destruct (Nat.leb_spec l (f t)); lia.
        -- lia.
        -- intros l' A B. rewrite (reidx_seated _ _ _ _ R2). apply in_map_iff. exists (S l'). unfold only. rewrite Nat.eqb_refl. split.
           ++ unfold dn. destruct (Nat.leb_spec l (S l')); lia.
           ++ apply F4; lia.
  - intros s' (f & W & R & Ho & _ & _ & _ & F4). apply (HQ s' f); auto. intros l A. apply F4; auto. lia.
Qed.

(** All restaurants. *)
Lemma ok_relabel_tables : forall s (Q : sst -> Prop), wf s ->
  (forall s' ft, wf s' -> reidx s s' ft -> (forall r l, r < ng -> l < length (nth r (s_rest I s') []) -> In l (seated s' r)) -> Q s') ->
  ok (rfold (relabel_rest I data) (seq 0 ng) s) Q.
Proof.
  intros s Q H HQ.
  apply ok_for with (Inv := fun m s' => exists ft, wf s' /\ reidx s s' ft /\
    forall r l, r < m -> l < length (nth r (s_rest I s') []) -> In l (seated s' r)).
  - exists (fun _ t => t). split; auto. split; [apply reidx_refl; auto|]. intros; lia.
  - intros m s1 Hm (ft & W & R & F). apply ok_relabel_rest; auto. intros s2 f W2 R2 F2 Ho.
    exists (fun r t => only m f r (ft r t)). split; auto. split; [eapply reidx_trans; eauto|].
    intros r l Hr Hl. destruct (Nat.eq_dec r m) as [->|N]; auto. rewrite Ho in Hl by auto.
    rewrite (reidx_seated _ _ _ _ R2). unfold only. apply Nat.eqb_neq in N. rewrite N, map_id. apply Nat.eqb_neq in N. apply F; auto. lia.
  - intros s' (ft & W & R & F). eapply HQ; eauto.
Qed.

(** ** Shared atoms *)

Lemma dishes_in : forall (s : sst) h, In h (dishes I data s) <-> exists r, r < ng /\ In h (somes (nth r (s_ts I s) [])).
Proof.
  intros s h. unfold dishes. rewrite in_flat_map. split.
  - intros (r & Hr & X). apply in_seq0 in Hr. eauto.
  - intros (r & Hr & X). exists r. split; auto. apply in_seq. lia.
Qed.

Lemma dishes_lt : forall s h, wf s -> In h (dishes I data s) -> h < length (s_shared I s).
Proof.
  intros s h H X. apply dishes_in in X. destruct X as (r & Hr & X). pose proof (row_ts_lt _ _ _ _ _ _ (wf_row _ _ _ H r Hr)) as F.
  rewrite Forall_forall in F. auto.
Qed.

Lemma ok_mark_shared : forall s (Q : list bool -> Prop), wf s ->
  (forall u, length u = length (s_shared I s) -> (forall h, nth h u false = true <-> In h (dishes I data s)) -> Q u) ->
  ok (mark_shared I data s) Q.
Proof.
  intros s Q H HQ. unfold mark_shared. set (N := length (s_shared I s)).
  apply ok_for with (Inv := fun m acc => length acc = N /\ forall h, nth h acc false = true <-> exists r, r < m /\ In h (somes (nth r (s_ts I s) []))).
  - rewrite repeat_length. split; auto. intros h. rewrite nth_repeat. split; [discriminate|]. intros (r & X & _). lia.
  - intros r acc Hr [La Ha]. change (r < ng) in Hr. apply ok_bind. apply ok_at with (d := []); [rewrite (wf_tsl _ _ _ H); auto|].
    pose proof (row_ts_lt _ _ _ _ _ _ (wf_row _ _ _ H r Hr)) as F. rewrite Forall_forall in F. fold N in F.
    set (tr := nth r (s_ts I s) []) in *.
    apply ok_rfold with (Inv := fun m acc' => length acc' = N /\ forall h, nth h acc' false = true <-> nth h acc false = true \/ In h (somes (firstn m tr))).
    + split; auto. intros h. simpl. tauto.
    + intros m acc' o Ho [La' Ha']. assert (Hm : m < length tr) by (apply nth_error_Some; congruence).
      assert (Eo : nth m tr None = o) by (rewrite (nth_error_nth' _ None Hm) in Ho; congruence).
      destruct o as [h|].
      * assert (Hh : h < N) by (apply F; apply somes_nth; eauto). apply ok_set; [lia|]. rewrite upd_length. split; auto. intros h'.
        rewrite (firstn_snoc _ None) by auto. rewrite Eo, somes_app, in_app_iff, nth_upd, La'. apply Nat.ltb_lt in Hh. rewrite Hh, andb_true_r.
        destruct (Nat.eqb_spec h' h) as [->|Nh].
        -- split; [intros _; right; right; left; reflexivity|reflexivity].
        -- rewrite Ha'. simpl. split; [tauto|]. intros [X|[X|[X|[]]]]; auto; congruence.
      * cbn [ok]. split; auto. intros h'. rewrite (firstn_snoc _ None) by auto. rewrite Eo, somes_app, Ha'. simpl. rewrite app_nil_r. tauto.
    + intros acc' [La' Ha']. split; auto. rewrite firstn_all in Ha'. intros h. rewrite Ha', Ha. split.
      * intros [(r0 & X & Y)|X]; [exists r0; split; auto; lia|exists r; split; auto].
      * intros (r0 & X & Y). destruct (Nat.eq_dec r0 r) as [->|Nr]; [right; auto|left; exists r0; split; auto; lia].
  - intros u [Lu Hu]. apply HQ; auto. intros h. rewrite Hu, dishes_in. reflexivity.
Qed.

(** [s'] is [s] with the shared atoms renamed by [fs]. *)
Record reshare (s s' : sst) (fs : nat -> nat) : Prop := {
  rs_keep : s' = w_ts I (s_ts I s') (w_shared I (s_shared I s') s);
  rs_ts : forall r, nth r (s_ts I s') [] = map (option_map fs) (nth r (s_ts I s) []);
  rs_tsl : length (s_ts I s') = length (s_ts I s);
  rs_sh : forall h, In h (dishes I data s) -> fs h < length (s_shared I s') /\ nth (fs h) (s_shared I s') 0 = nth h (s_shared I s) 0;
  rs_mono : forall h k, In h (dishes I data s) -> In k (dishes I data s) -> h < k -> fs h < fs k
}.

Lemma reshare_dishes : forall s s' fs, reshare s s' fs -> dishes I data s' = map fs (dishes I data s).
Proof.
  intros s s' fs R. unfold dishes. rewrite map_flat_map. apply flat_map_ext_in. intros r _. rewrite (rs_ts _ _ _ R), somes_map. reflexivity.
Qed.

Lemma map_id_in : forall A (f : A -> A) l, (forall x, In x l -> f x = x) -> map f l = l.
Proof. intros A f l H. erewrite map_ext_in; [apply map_id|]. exact H. Qed.

Lemma reshare_wf : forall s s' fs, wf s -> reshare s s' fs -> Forall (fun o => o < length (s_heap I s)) (s_shared I s') ->
  NoDup (s_shared I s') -> (forall o, In o (s_shared I s') -> In o (s_shared I s)) -> wf s'.
Proof.
  intros s s' fs H R F Nd Sub. pose proof (rs_ts _ _ _ R) as Rts. pose proof (rs_tsl _ _ _ R) as Rl. pose proof (rs_sh _ _ _ R) as Rsh. rewrite (rs_keep _ _ _ R).
  set (ts := s_ts I s') in *. set (sh := s_shared I s') in *. clearbody ts sh. destruct H; constructor; cbn; auto; [congruence| |].
  2:{ apply (alias_sub _ _ _ _ _ wf_own); auto; [apply wf_own|]. intros r o X. left. auto. }
  intros r Hr. rewrite Rts. destruct (wf_row r Hr) as [A B C D E F' G]. constructor; auto; [rewrite map_length; auto|].
  intros l Hl. rewrite nth_map_None. specialize (E l Hl). destruct (nth l (nth r (s_tp I s) []) None), (nth l (nth r (s_ts I s) []) None) as [h|] eqn:Eh; simpl; auto.
  apply Rsh. apply dishes_in. exists r. split; auto. apply somes_nth. exists l. split; auto. lia.
Qed.

Lemma ok_drop_shared_all : forall s used (Q : sst -> Prop), wf s -> length used = length (s_shared I s) ->
  (forall h, nth h used false = true <-> In h (dishes I data s)) ->
  (forall s' fs, wf s' -> reshare s s' fs -> (forall h, h < length (s_shared I s') -> In h (dishes I data s')) -> Q s') ->
  ok (rfold (drop_shared I used) (rev (seq 0 (length used))) s) Q.
Proof.
  intros s used Q H Lu Hu HQ. rewrite Lu.
  apply ok_down with (Inv := fun k s' => exists fs, reshare s s' fs /\ (Forall (fun o => o < length (s_heap I s)) (s_shared I s') /\ NoDup (s_shared I s') /\ forall o, In o (s_shared I s') -> In o (s_shared I s)) /\
    (forall h, h < k -> fs h = h) /\ (forall h, In h (dishes I data s) -> k <= h -> k <= fs h) /\ k <= length (s_shared I s') /\
    (forall h, k <= h -> h < length (s_shared I s') -> In h (dishes I data s'))).
  - exists (fun h => h). split; [|split; [split; [apply (wf_shared _ _ _ H)|split; [apply (wf_own _ _ _ H)|auto]]|]].
    + constructor; auto.
      * destruct s; reflexivity.
      * intros r. rewrite map_id_in; auto. intros [x|] _; reflexivity.
      * intros h X. split; auto. apply dishes_lt; auto.
    + do 3 (split; auto). intros; lia.
  - intros l s1 Hl (fs & R & Fo & F1 & F2 & F3 & F4). unfold drop_shared. apply ok_bind. apply ok_at with (d := false); [lia|].
    destruct (nth l used false) eqn:Eu.
    + cbn [ok]. exists fs. split; auto. split; auto. split; [intros; apply F1; lia|]. split; [|split; [lia|]].
      * intros t X Y. destruct (Nat.eq_dec t l) as [->|N]; [rewrite F1; lia|]. specialize (F2 t X ltac:(lia)). lia.
      * intros l' A B. destruct (Nat.eq_dec l' l) as [->|N]; [|apply F4; auto; lia].
        apply Hu in Eu. rewrite (reshare_dishes _ _ _ R). apply in_map_iff. exists l. split; [apply F1; lia|auto].
    + assert (Hne : forall h, In h (dishes I data s) -> fs h <> l).
      { intros t X E. assert (t <> l). { intros ->. apply Hu in X. congruence. }
        destruct (Nat.lt_ge_cases t l) as [A|A]; [rewrite F1 in E by lia; lia|]. specialize (F2 t X ltac:(lia)). lia. }
      apply ok_bind. apply ok_erase; [lia|]. cbn [ok]. exists (fun h => dn l (fs h)).
      set (s2 := w_ts I _ _).
      assert (R2 : reshare s s2 (fun h => dn l (fs h))).
      { constructor.
        - unfold s2. cbn [w_ts w_shared s_ts s_shared].
          generalize (map (map (dec_ge l)) (s_ts I s1)) (del (s_shared I s1) l). intros A B. rewrite (rs_keep _ _ _ R). reflexivity.
        - intros r. unfold s2. cbn. change (@nil (option nat)) with (map (dec_ge l) []) at 1. rewrite (map_nth (map (dec_ge l))), (rs_ts _ _ _ R), map_map.
          apply map_ext. intros [x|]; reflexivity.
        - unfold s2. cbn. rewrite map_length. apply (rs_tsl _ _ _ R).
        - intros h X. unfold s2. cbn. destruct (rs_sh _ _ _ R h X) as [A B]. rewrite nth_del_dn by auto. split; auto. rewrite del_len by lia.
          specialize (Hne h X). unfold dn. destruct (Nat.leb_spec l (fs h)); lia.
        - intros h k X Y L. pose proof (rs_mono _ _ _ R h k X Y L). pose proof (Hne h X). pose proof (Hne k Y). unfold dn.
          destruct (Nat.leb_spec l (fs h)), (Nat.leb_spec l (fs k)); lia. }
      destruct Fo as (Fo1 & Fo2 & Fo3).
      split; auto. split; [split; [apply Forall_del; auto|split; [apply NoDup_del; auto|intros o X; apply Fo3; eapply in_del; exact X]]|]. split; [|split; [|split]].
      * intros h Hh. rewrite F1 by lia. unfold dn. destruct (Nat.leb_spec l h); lia.
      * intros h X Y. assert (h <> l). { intros ->. apply Hu in X. congruence. } specialize (F2 h X ltac:(lia)). unfold dn. destruct (Nat.leb_spec l (fs h)); lia.
      * cbn. rewrite del_len; lia.
      * intros h A B. cbn in B. rewrite del_len in B by lia. rewrite (reshare_dishes _ _ _ R2). assert (X : In (S h) (dishes I data s1)) by (apply F4; lia).
        rewrite (reshare_dishes _ _ _ R) in X. apply in_map_iff in X. destruct X as (t & E & X). apply in_map_iff. exists t. split; auto. rewrite E. unfold dn.
        destruct (Nat.leb_spec l (S h)); lia.
  - intros s' (fs & R & Fo & _ & _ & _ & F4). apply (HQ s' fs); auto.
    + destruct Fo as (Fo1 & Fo2 & Fo3). eapply reshare_wf; eauto.
    + intros h X. apply F4; auto. lia.
Qed.

(** ** The whole function *)

Notation renamed := (SemiSpec.renamed I data).

Lemma relabel_ok : forall s, wf s ->
  exists s' ft fs, relabel I data s = Ok s' /\ wf s' /\ renamed s s' ft fs /\ no_empty I data s' /\ counts_exact I data s'.
Proof.
  intros s H.
  enough (X : ok (relabel I data s) (fun s' => exists ft fs, wf s' /\ renamed s s' ft fs /\ no_empty I data s' /\ counts_exact I data s')).
  { apply ok_inv in X. destruct X as (s' & E & ft & fs & X). exists s', ft, fs. tauto. }
  unfold relabel. apply ok_bind. apply ok_relabel_tables; auto. intros s1 ft W1 R1 F1.
  apply ok_bind. apply ok_mark_shared; auto. intros u Lu Hu.
  apply ok_bind. apply ok_drop_shared_all; auto. intros s2 fs W2 R2 F2.
  apply ok_bind. apply ok_count_n; [exact Hcols|apply wf_tabs_in; auto|apply (wf_rest _ _ _ W2)|apply (wf_nl _ _ _ W2)|].
  apply ok_count_m; [exact Hcols|apply (wf_tsl _ _ _ W2)|intros r Hr; eapply row_ts_lt; apply (wf_row _ _ _ W2 r Hr)|].
  exists ft, fs.
  pose proof (rs_keep _ _ _ R2) as K2.
  assert (E1 : s_heap I s2 = s_heap I s1 /\ s_ra I s2 = s_ra I s1 /\ s_used I s2 = s_used I s1 /\ s_conc I s2 = s_conc I s1 /\ s_w I s2 = s_w I s1 /\
               s_tab I s2 = s_tab I s1 /\ s_rest I s2 = s_rest I s1 /\ s_tp I s2 = s_tp I s1) by (rewrite K2; repeat split).
  destruct E1 as (E1 & E2 & E3 & E4 & E5 & E6 & E7 & E8).
  assert (Hseat : forall r, seated s2 r = seated s1 r) by (intros r; unfold SemiSpec.seated; rewrite E2, E6; reflexivity).
  assert (Hdish : forall r t h, r < ng -> In t (seated s r) -> nth t (nth r (s_ts I s) []) None = Some h -> In h (dishes I data s1)).
  { intros r t h Hr X E. destruct (re_keep _ _ _ R1 r t Hr X) as (A1 & A2 & A3 & A4). apply dishes_in. exists r. split; auto.
    apply somes_nth. exists (ft r t). split; [|congruence]. rewrite (ro_ts _ _ _ _ _ _ (wf_row _ _ _ W1 r Hr)). auto. }
  split; [|split; [|split]].
  - apply wf_w_m. destruct W2; constructor; auto.
    + apply all_counts_length.
    + intros r Hr. cbn [w_n s_n]. rewrite all_counts_nth by auto. rewrite tally_length. reflexivity.
  - constructor; cbn [w_m w_n s_heap s_ra s_used s_conc s_w s_tab s_rest s_ts s_tp s_shared].
    + rewrite E1. apply (re_heap _ _ _ R1).
    + rewrite E2. apply (re_ra _ _ _ R1).
    + rewrite E3. apply (re_used _ _ _ R1).
    + rewrite E4. apply (re_conc _ _ _ R1).
    + rewrite E5. apply (re_w _ _ _ R1).
    + rewrite E6. apply (re_tab _ _ _ R1).
    + intros r t Hr X. rewrite E7, E8, (rs_ts _ _ _ R2), nth_map_None. destruct (re_keep _ _ _ R1 r t Hr X) as (A1 & A2 & A3 & A4).
      split; auto. split; auto. split; auto. rewrite A3. reflexivity.
    + intros r t h Hr X E. rewrite <- (re_shared _ _ _ R1). apply (rs_sh _ _ _ R2). eapply Hdish; eauto.
    + apply (re_mono _ _ _ R1).
  - split.
    + intros r l Hr Hl. change (In l (seated s2 r)). rewrite Hseat. apply F1; auto. cbn in Hl. rewrite E7 in Hl. auto.
    + intros h Hh. apply F2. exact Hh.
  - split.
    + intros r Hr. cbn [w_m w_n s_n]. rewrite all_counts_nth by auto. reflexivity.
    + reflexivity.
Qed.

End Rel.
