(** * A message read back is the message written *)
From Coq Require Import String.
From Coq Require Import List NArith ZArith Bool Lia.
From Verif Require Import Collect CollectFacts Schema Wire WireSpec WireFacts WireRead.
Import ListNotations.
Local Open Scope N_scope.

(** ** Nothing is cleared *)

Lemma filter_all : forall A (p : A -> bool) l, (forall a, In a l -> p a = true) -> filter p l = l.
Proof. induction l as [|a l IH]; intros H; [reflexivity|]. cbn. rewrite H by (left; reflexivity). f_equal. apply IH. intros; apply H; right; assumption. Qed.

Lemma clear_go : forall t x acc, (forall e a, In e x -> In a (acc ++ x) -> clears t (fst e) (fst a) = false) ->
  fold_left (clear_step t) x acc = acc ++ x.
Proof.
  intros t. induction x as [|e x IH]; intros acc H; [cbn; rewrite app_nil_r; reflexivity|]. cbn [fold_left].
  assert (E : clear_step t acc e = acc ++ [e]).
  { unfold clear_step. f_equal. apply filter_all. intros a Ia. rewrite H; [reflexivity|left; reflexivity|].
    apply in_or_app. left. exact Ia. }
  rewrite E, IH; [rewrite <- app_assoc; reflexivity|]. intros f a If Ia. apply H; [right; exact If|]. rewrite <- app_assoc in Ia. exact Ia.
Qed.

Lemma clear_id : forall t x, (forall e a, In e x -> In a x -> clears t (fst e) (fst a) = false) -> clear t x = x.
Proof. intros t x H. unfold clear. rewrite clear_go; [reflexivity|]. exact H. Qed.

Lemma order_in : forall d t m k v, In (k, v) (order (S d) t m) -> exists f w, In f (fields t) /\ fnum f = k /\ In (k, w) m.
Proof.
  intros d t m k v I. cbn [order] in I. apply in_flat_map in I as (f & F & I). apply in_map_iff in I as (w & E & I).
  injection E as Ek _. subst k. exists f.
  assert (X : exists w', In w' (entries (fnum f) m)).
  { destruct (entries (fnum f) m) as [|w' l] eqn:Q; [|exists w'; left; reflexivity]. exfalso.
    destruct (fkind f); try destruct (frep f); exact I. }
  destruct X as [w' X]. exists w'. repeat split; [exact F|]. apply entries_in, X.
Qed.

Lemma clear_order : forall d t m, well_typed (KMsg t) (VMsg m) -> clear t (order (S d) t m) = order (S d) t m.
Proof.
  intros d t m W. apply clear_id. intros [k v] [j w] I1 I2. cbn [fst].
  apply order_in in I1 as (f & v' & F & Ef & I1). apply order_in in I2 as (g & w' & G & Eg & I2). subst k j.
  unfold clears. rewrite !field_no_in by assumption. destruct (N.eqb_spec (fnum f) (fnum g)) as [E|E]; [reflexivity|]. cbn [negb andb].
  unfold same_group. destruct (fone f) as [a|] eqn:A; [|reflexivity]. destruct (fone g) as [b|] eqn:B; [|reflexivity].
  destruct (String.eqb_spec a b) as [->|]; [|reflexivity]. exfalso. apply E. f_equal.
  inversion W as [| | | | |t0 m0 W1 W2 W3]; subst. exact (W3 f g b v' w' F G A B I1 I2).
Qed.

Definition canon (d : nat) (t : string) (m : message) : message := merged d t (order d t m).

(* what happens to one field *)
Definition canon_field (d : nat) (f : field) (vs : list val) : list val :=
  match fkind f with
  | KMsg t' => map (fun v => VMsg (canon d t' (parts_of v))) vs
  | _ => if frep f then vs else filter (fun v => negb (unset v)) vs
  end.

Lemma single_entries : forall t m f, well_typed (KMsg t) (VMsg m) -> In f (fields t) -> frep f = false ->
  entries (fnum f) m = [] \/ exists v, entries (fnum f) m = [v].
Proof.
  intros t m f W F R. inversion W as [| | | | |t0 m0 W1 W2 W3]; subst. specialize (W2 f F R).
  destruct (entries (fnum f) m) as [|v [|w l]]; [left; reflexivity|right; exists v; reflexivity|cbn in W2; lia].
Qed.

Lemma canon_entries : forall d t m f, well_typed (KMsg t) (VMsg m) -> In f (fields t) ->
  entries (fnum f) (canon (S d) t m) = canon_field d f (entries (fnum f) m).
Proof.
  intros d t m f W F. unfold canon. cbn [merged]. rewrite clear_order by exact W.
  assert (E : entries (fnum f) (order (S d) t m) =
      match fkind f with
      | KMsg t' => map (fun v => VMsg (order d t' (parts_of v))) (entries (fnum f) m)
      | _ => if frep f then entries (fnum f) m else filter (fun v => negb (unset v)) (entries (fnum f) m)
      end)
    by (cbn [order]; rewrite (entries_layout _ (fun f => match fkind f with
          | KMsg t' => map (fun v => VMsg (order d t' (parts_of v))) (entries (fnum f) m)
          | _ => if frep f then entries (fnum f) m else filter (fun v => negb (unset v)) (entries (fnum f) m) end));
        [reflexivity|apply nums_nodup|exact F]).
  rewrite (entries_layout _ (fun f => match fkind f with
          | KMsg t' =>
              if frep f then map (fun v => VMsg (merged d t' (parts_of v))) (entries (fnum f) (order (S d) t m))
              else match entries (fnum f) (order (S d) t m) with
                   | [] => []
                   | _ => [VMsg (merged d t' (flat_map parts_of (entries (fnum f) (order (S d) t m))))]
                   end
          | _ => if frep f then entries (fnum f) (order (S d) t m) else last_set (entries (fnum f) (order (S d) t m))
          end)); [|apply nums_nodup|exact F].
  cbn beta. rewrite E. unfold canon_field. destruct (frep f) eqn:R.
  - destruct (fkind f); try reflexivity. rewrite map_map. reflexivity.
  - destruct (single_entries t m f W F R) as [Q|[v Q]]; rewrite Q.
    + destruct (fkind f); reflexivity.
    + destruct (fkind f) as [| | | | |t'] eqn:K; try (cbn [filter]; unfold last_set; destruct (unset v) eqn:U; cbn [negb rev app]; rewrite ?U; reflexivity).
      cbn [map flat_map parts_of]. rewrite app_nil_r. reflexivity.
Qed.

Lemma same_scalar : forall k v, is_msg k = false -> same k v v \/ exists m, v = VMsg m.
Proof. intros k [z|b|s|m] K; try (left; constructor). right. exists m. reflexivity. Qed.

Lemma typed_same : forall k v, well_typed k v -> is_msg k = false -> same k v v.
Proof. intros k v W K. destruct W; try discriminate; constructor. Qed.

Lemma unset_default : forall k v, well_typed k v -> is_msg k = false -> unset v = true -> v = default_of k.
Proof.
  intros k v W K U. destruct W; try discriminate; cbn in *.
  - apply Z.eqb_eq in U. subst. reflexivity.
  - apply Z.eqb_eq in U. subst. reflexivity.
  - apply Z.eqb_eq in U. subst. reflexivity.
  - apply N.eqb_eq in U. subst. reflexivity.
  - destruct s; [reflexivity|discriminate].
Qed.

Lemma forall2_same : forall k vs, Forall (well_typed k) vs -> is_msg k = false -> Forall2 (same k) vs vs.
Proof. intros k vs W K. induction W; constructor; [apply typed_same; assumption|assumption]. Qed.

Lemma canon_same : forall d t m, deep d t = true -> well_typed (KMsg t) (VMsg m) -> same (KMsg t) (VMsg m) (VMsg (canon d t m)).
Proof.
  induction d as [|d IH]; intros t m D W; [discriminate|]. constructor. intros f F.
  pose proof (entries_typed t m f W F) as T. unfold reads. rewrite canon_entries by assumption. unfold canon_field.
  assert (X : forall t', fkind f = KMsg t' -> Forall2 (same (fkind f)) (entries (fnum f) m) (map (fun v => VMsg (canon d t' (parts_of v))) (entries (fnum f) m))).
  { intros t' K. rewrite <- (map_id (entries (fnum f) m)) at 1. apply forall2_map_same. intros v Iv.
    pose proof (proj1 (Forall_forall _ _) T v Iv) as Wv. rewrite K in *. inversion Wv as [| | | | |t0 m' A B C]; subst. cbn [parts_of]. apply IH; [|exact Wv].
    pose proof (proj1 (forallb_forall _ _) D f F) as Q. cbn beta in Q. rewrite K in Q. exact Q. }
  assert (Y : is_msg (fkind f) = false -> frep f = false ->
     Forall2 (same (fkind f)) (match entries (fnum f) m with [] => [default_of (fkind f)] | vs => vs end)
       (match filter (fun v => negb (unset v)) (entries (fnum f) m) with [] => [default_of (fkind f)] | vs => vs end)).
  { intros M R. assert (D0 : same (fkind f) (default_of (fkind f)) (default_of (fkind f))) by (destruct (fkind f); try discriminate; constructor).
    destruct (single_entries t m f W F R) as [Q|[v Q]]; rewrite Q in *.
    - constructor; [exact D0|constructor].
    - inversion T as [|x y Wv _]; subst. cbn [filter]. destruct (unset v) eqn:U; cbn [negb].
      + constructor; [|constructor]. rewrite (unset_default _ _ Wv M U). exact D0.
      + constructor; [|constructor]. apply typed_same; assumption. }
  destruct (fkind f) as [| | | | |t'] eqn:K; destruct (frep f) eqn:R; try (apply forall2_same; [exact T|reflexivity]); try (apply Y; reflexivity);
    apply X; reflexivity.
Qed.

(** ** Writing what was read gives the same bytes *)

Lemma canon_payload : forall d k v, (forall t, k = KMsg t -> deep d t = true) -> well_typed k v ->
  (forall t m, deep d t = true -> well_typed (KMsg t) (VMsg m) -> serialize t (canon d t m) = serialize t m) ->
  forall t, k = KMsg t -> payload k (VMsg (canon d t (parts_of v))) = payload k v.
Proof.
  intros d k v D W H t ->. inversion W as [| | | | |t0 m A B C]; subst. cbn [parts_of].
  change (RLen (serialize t (canon d t m)) = RLen (serialize t m)). f_equal. apply H; [apply D; reflexivity|exact W].
Qed.

Lemma canon_bytes : forall d t m, deep d t = true -> well_typed (KMsg t) (VMsg m) -> serialize t (canon d t m) = serialize t m.
Proof.
  induction d as [|d IH]; intros t m D W; [discriminate|]. unfold serialize. f_equal. rewrite !records_fields, !flat_map_concat_map. f_equal.
  apply map_ext_in. intros f F. rewrite canon_entries by assumption. pose proof (entries_typed t m f W F) as T. unfold canon_field.
  assert (X : forall t', fkind f = KMsg t' -> map (payload (fkind f)) (map (fun v => VMsg (canon d t' (parts_of v))) (entries (fnum f) m)) = map (payload (fkind f)) (entries (fnum f) m)).
  { intros t' K. rewrite map_map. apply map_ext_in. intros v Iv. apply (canon_payload d); [|exact (proj1 (Forall_forall _ _) T v Iv)|exact IH|exact K].
    intros t2 K2. pose proof (proj1 (forallb_forall _ _) D f F) as Q. cbn beta in Q. rewrite K2 in Q. exact Q. }
  assert (Y : is_msg (fkind f) = false -> frep f = false ->
    emit f (map (payload (fkind f)) (filter (fun v => negb (unset v)) (entries (fnum f) m))) = emit f (map (payload (fkind f)) (entries (fnum f) m))).
  { intros M R. unfold emit. rewrite R, M. cbn [andb orb]. f_equal.
    rewrite <- (filter_map_comm _ _ (payload (fkind f)) (fun r => negb (default r)) (fun v => negb (unset v))).
    - generalize (map (payload (fkind f)) (entries (fnum f) m)). intros l. induction l as [|a l IHl]; [reflexivity|]. cbn [filter].
      destruct (negb (default a)) eqn:Z; [cbn [filter]; rewrite Z; f_equal; exact IHl|exact IHl].
    - intros v Iv. rewrite default_unset; [reflexivity|exact (proj1 (Forall_forall _ _) T v Iv)|exact M]. }
  destruct (fkind f) as [| | | | |t'] eqn:K; destruct (frep f) eqn:R; try reflexivity; try (apply Y; reflexivity); f_equal; apply X; reflexivity.
Qed.

Lemma parse_any : forall d t m, deep d t = true -> well_typed (KMsg t) (VMsg m) -> N.of_nat (length (serialize t m)) < int_max ->
  match read_message d t (serialize t m) with Some x => Some (merged d t x) | None => None end = Some (canon d t m).
Proof. intros d t m D W L. rewrite read_back by assumption. reflexivity. Qed.

Lemma deep_limit : forall t, deep depth_limit t = true.
Proof. intros t. exact (proj2 (proj2 (fields_ok t))). Qed.

Lemma parse_serialize : forall t m, well_typed (KMsg t) (VMsg m) -> N.of_nat (length (serialize t m)) < int_max ->
  parse_message t (serialize t m) = Some (canon depth_limit t m).
Proof. intros t m W L. exact (parse_any depth_limit t m (deep_limit t) W L). Qed.

(** ** Fields of other versions are skipped *)

Lemma all_some_snoc : forall A (a : list (option A)) x y, all_some a = Some x -> all_some (a ++ [Some y]) = Some (x ++ [y]).
Proof. intros A a x y H. apply all_some_app; [exact H|reflexivity]. Qed.

Lemma skip_unknown : forall d t m k r, well_typed (KMsg t) (VMsg m) -> N.of_nat (length (serialize t m)) < int_max -> deep (S d) t = true ->
  field_no t k = None -> ok_rec (k, r) ->
  read_message (S d) t (serialize t m ++ rec_bytes (k, r)) = read_message (S d) t (serialize t m).
Proof.
  intros d t m k r W L D K O. pose proof (read_back (S d) t m D W L) as B. rewrite B. cbn [read_message] in *.
  unfold serialize in B at 2. rewrite read_recs_ok in B; [|apply records_ok; assumption|unfold serialize; lia].
  assert (E : serialize t m ++ rec_bytes (k, r) = flat_map rec_bytes (records t m ++ [(k, r)]))
    by (rewrite flat_map_app; cbn [flat_map]; rewrite app_nil_r; reflexivity).
  rewrite E, read_recs_ok; [|apply Forall_app; split; [apply records_ok; assumption|repeat constructor; apply O]|lia].
  destruct (all_some (map (read_record (read_message d) t) (records t m))) as [ms|] eqn:A; [|discriminate].
  assert (A' : all_some (map (read_record (read_message d) t) (records t m ++ [(k, r)])) = Some (ms ++ [[]])).
  { rewrite map_app. cbn [map]. unfold read_record at 2. cbn [fst]. rewrite K. apply all_some_snoc. exact A. }
  rewrite A', concat_app. cbn [concat]. rewrite !app_nil_r. exact B.
Qed.

Lemma parse_unknown : forall d t m k r, well_typed (KMsg t) (VMsg m) -> N.of_nat (length (serialize t m)) < int_max -> deep (S d) t = true ->
  field_no t k = None -> ok_rec (k, r) ->
  match read_message (S d) t (serialize t m ++ rec_bytes (k, r)) with Some x => Some (merged (S d) t x) | None => None end =
  match read_message (S d) t (serialize t m) with Some x => Some (merged (S d) t x) | None => None end.
Proof. intros. rewrite skip_unknown by assumption. reflexivity. Qed.
