(** * The messages as they are written to chain files *)
From Coq Require Import String.
From Coq Require Import List NArith ZArith Bool Lia Eqdep_dec.
From Verif Require Import Base Collect CollectFacts CollectMore Schema Wire WireSpec WireFacts WireRead WireBack.
Import ListNotations.
Local Open Scope N_scope.

Fixpoint list_eqb {A : Type} (eq : A -> A -> bool) (l r : list A) : bool :=
  match l, r with
  | [], [] => true
  | a :: l', b :: r' => eq a b && list_eqb eq l' r'
  | _, _ => false
  end.

Fixpoint val_eqb (v w : val) : bool :=
  match v, w with
  | VInt a, VInt b => (a =? b)%Z
  | VDbl a, VDbl b => a =? b
  | VStr a, VStr b => list_eqb N.eqb a b
  | VMsg a, VMsg b =>
      (fix go (l r : message) : bool :=
         match l, r with
         | [], [] => true
         | (i, x) :: l', (j, y) :: r' => (i =? j) && val_eqb x y && go l' r'
         | _, _ => false
         end) a b
  | _, _ => false
  end.

Fixpoint msg_eqb (l r : message) : bool :=
  match l, r with
  | [], [] => true
  | (i, x) :: l', (j, y) :: r' => (i =? j) && val_eqb x y && msg_eqb l' r'
  | _, _ => false
  end.

Lemma bytes_eqb : forall a b, list_eqb N.eqb a b = true <-> a = b.
Proof.
  induction a as [|x a IH]; intros [|y b]; cbn; split; intros H; try discriminate; try reflexivity.
  - apply andb_prop in H as [H1 H2]. apply N.eqb_eq in H1. apply IH in H2. subst. reflexivity.
  - injection H as -> ->. rewrite N.eqb_refl. cbn. apply IH. reflexivity.
Qed.

Fixpoint val_eqb_eq (v : val) : forall w, val_eqb v w = true <-> v = w.
Proof.
  intros w. destruct v as [z|b|s|m], w as [z'|b'|s'|m']; cbn [val_eqb]; try (split; intros H; discriminate).
  - rewrite Z.eqb_eq. split; intros H; [subst; reflexivity|injection H; auto].
  - rewrite N.eqb_eq. split; intros H; [subst; reflexivity|injection H; auto].
  - rewrite bytes_eqb. split; intros H; [subst; reflexivity|injection H; auto].
  - revert m'. induction m as [|[i x] m IH]; intros [|[j y] m']; split; intros H; try discriminate; try reflexivity.
    + apply andb_prop in H as [H H3]. apply andb_prop in H as [H1 H2]. apply N.eqb_eq in H1. apply (val_eqb_eq x) in H2. apply IH in H3.
      injection H3 as ->. subst. reflexivity.
    + injection H as <- <- <-. rewrite N.eqb_refl, (proj2 (val_eqb_eq x x) eq_refl). cbn [andb]. apply IH. reflexivity.
Qed.

Lemma msg_eqb_eq : forall l r, msg_eqb l r = true <-> l = r.
Proof.
  intros l r. change (msg_eqb l r) with (val_eqb (VMsg l) (VMsg r)). rewrite val_eqb_eq. split; intros H; [injection H; auto|subst; reflexivity].
Qed.

(** A message in the form in which it is read: fields by number, no default values. *)
Definition settled (t : string) (m : message) : bool :=
  match parse_message t (serialize t m) with Some m' => msg_eqb m' m | None => false end.

Definition stored (t : string) : Type := { m : message | settled t m = true }.

Definition settle (t : string) (m : message) : option (stored t) :=
  match bool_dec (settled t m) true with left H => Some (exist _ m H) | right _ => None end.

Definition wire (t : string) : proto := mkProto (stored t)
  (fun m => serialize t (proj1_sig m))
  (fun bs => match parse_message t bs with Some m => settle t m | None => None end).

Lemma settle_ok : forall t m (H : settled t m = true), settle t m = Some (exist _ m H).
Proof.
  intros t m H. unfold settle. destruct (bool_dec (settled t m) true) as [E|E]; [|contradiction].
  f_equal. f_equal. apply UIP_dec. apply bool_dec.
Qed.

Lemma wire_law : forall t (m : Msg (wire t)), parse (wire t) (ser (wire t) m) = Some m.
Proof.
  intros t [m H]. cbn [wire parse ser proj1_sig]. pose proof H as Q. unfold settled in Q.
  destruct (parse_message t (serialize t m)) as [m'|] eqn:E; [|discriminate]. apply msg_eqb_eq in Q. subst m'. apply settle_ok.
Qed.

(* whatever is written can be read: the result is settled *)
Lemma written_settled : forall t m, well_typed (KMsg t) (VMsg m) -> N.of_nat (length (serialize t m)) < int_max ->
  settled t (canon depth_limit t m) = true.
Proof.
  intros t m W L. unfold settled. rewrite (canon_bytes depth_limit t m (deep_limit t) W), (parse_serialize t m W L). apply msg_eqb_eq. reflexivity.
Qed.

Lemma stored_chain : forall t ms,
  (forall m, In m ms -> well_typed (KMsg t) (VMsg m) /\ N.of_nat (length (serialize t m)) < int_max) ->
  exists cs : list (Msg (wire t)),
    Forall2 (fun m (c : stored t) => same (KMsg t) (VMsg m) (VMsg (proj1_sig c)) /\ serialize t (proj1_sig c) = serialize t m) ms cs.
Proof.
  intros t. induction ms as [|m ms IH]; intros H; [exists []; constructor|].
  destruct (IH (fun x I => H x (or_intror I))) as [cs C]. destruct (H m (or_introl eq_refl)) as [W L].
  exists (exist _ (canon depth_limit t m) (written_settled t m W L) :: cs). constructor; [|exact C]. cbn [proj1_sig]. split.
  - apply canon_same; [apply deep_limit|exact W].
  - apply canon_bytes; [apply deep_limit|exact W].
Qed.

Lemma stored_fit : forall t ms (cs : list (Msg (wire t))),
  (forall m, In m ms -> N.of_nat (length (serialize t m)) < int_max) ->
  Forall2 (fun m (c : stored t) => same (KMsg t) (VMsg m) (VMsg (proj1_sig c)) /\ serialize t (proj1_sig c) = serialize t m) ms cs ->
  (forall c, In c cs -> fits (wire t) c = true) /\
  fc_written (wire t) cs = flat_map (fun m => varint (N.of_nat (length (serialize t m))) ++ serialize t m) ms.
Proof.
  intros t ms cs H C. induction C as [|m c ms cs [_ E] C IH]; [split; [intros c []|reflexivity]|].
  destruct (IH (fun x I => H x (or_intror I))) as [F G].
  assert (Fc : fits (wire t) c = true).
  { unfold fits. cbn [wire ser]. rewrite E. apply N.ltb_lt. apply H. left. reflexivity. }
  split; [intros x [<-|I]; [exact Fc|apply F, I]|].
  unfold fc_written in *. cbn [flat_map]. rewrite G. f_equal. unfold delim. rewrite Fc. cbn [wire ser]. rewrite E. reflexivity.
Qed.

(** ** Deciding that a message is well formed *)

Definition empty {A : Type} (l : list A) : bool := match l with [] => true | _ => false end.

Fixpoint typed (d : nat) (k : kind) (v : val) : bool :=
  match d with
  | O => false
  | S d' =>
      match k, v with
      | KInt32, VInt z => ((- 2 ^ 31 <=? z) && (z <? 2 ^ 31))%Z
      | KUint32, VInt z => ((0 <=? z) && (z <? 2 ^ 32))%Z
      | KBool, VInt z => ((z =? 0) || (z =? 1))%Z
      | KDouble, VDbl b => b <? 2 ^ 64
      | KString, VStr s => forallb (fun b => b <? 128) s
      | KMsg t, VMsg m =>
          forallb (fun e => match field_no t (fst e) with Some f => typed d' (fkind f) (snd e) | None => false end) m &&
          forallb (fun f => frep f || (length (entries (fnum f) m) <=? 1)%nat) (fields t) &&
          forallb (fun f => forallb (fun g => negb (same_group f g) || (fnum f =? fnum g) || empty (entries (fnum f) m) || empty (entries (fnum g) m)) (fields t)) (fields t)
      | _, _ => false
      end
  end.

Lemma typed_ok : forall d k v, typed d k v = true -> well_typed k v.
Proof.
  induction d as [|d IH]; intros k v H; [discriminate|]. cbn [typed] in H.
  destruct k as [| | | | |t], v as [z|b|s|m]; try discriminate.
  - apply andb_prop in H as [A B]. apply Z.leb_le in A. apply Z.ltb_lt in B. constructor. lia.
  - apply andb_prop in H as [A B]. apply Z.leb_le in A. apply Z.ltb_lt in B. constructor. lia.
  - apply orb_prop in H as [A|A]; apply Z.eqb_eq in A; constructor; lia.
  - apply N.ltb_lt in H. constructor. exact H.
  - constructor. apply Forall_forall. intros b I. apply N.ltb_lt. exact (proj1 (forallb_forall _ _) H b I).
  - apply andb_prop in H as [H H3]. apply andb_prop in H as [H1 H2]. constructor.
    + intros k v I. pose proof (proj1 (forallb_forall _ _) H1 _ I) as Q. cbn [fst snd] in Q.
      unfold field_no in Q. destruct (find _ (fields t)) as [f|] eqn:E; [|discriminate]. apply find_some in E as [F E]. apply N.eqb_eq in E.
      exists f. repeat split; [exact F|exact E|apply IH, Q].
    + intros f F R. pose proof (proj1 (forallb_forall _ _) H2 _ F) as Q. cbn beta in Q. rewrite R in Q. apply Nat.leb_le, Q.
    + intros f g o v w F G A B Iv Iw. pose proof (proj1 (forallb_forall _ _) (proj1 (forallb_forall _ _) H3 _ F) _ G) as Q. cbn beta in Q.
      unfold same_group in Q. rewrite A, B, String.eqb_refl in Q. cbn [negb orb] in Q.
      apply entries_in in Iv. apply entries_in in Iw.
      destruct (entries (fnum f) m); [destruct Iv|]. destruct (entries (fnum g) m); [destruct Iw|]. cbn [empty] in Q. rewrite !orb_false_r in Q.
      apply N.eqb_eq in Q. exact (nodup_same _ _ _ (nums_nodup t) F G Q).
Qed.
