(** * Reading a written message *)
From Coq Require Import String.
From Coq Require Import List NArith ZArith Bool Lia.
From Verif Require Import Collect CollectFacts Schema Wire WireSpec WireFacts.
Import ListNotations.
Local Open Scope N_scope.

Fixpoint order (d : nat) (t : string) (m : message) : message :=
  match d with
  | O => m
  | S d' =>
      flat_map (fun f =>
        let vs := entries (fnum f) m in
        map (pair (fnum f))
          match fkind f with
          | KMsg t' => map (fun v => VMsg (order d' t' (parts_of v))) vs
          | _ => if frep f then vs else filter (fun v => negb (unset v)) vs
          end) (fields t)
  end.

Lemma default_unset : forall k v, well_typed k v -> is_msg k = false -> default (payload k v) = unset v.
Proof.
  intros k v W. destruct W as [z H|z H|z H|b H|s H|t m A B C]; intros K; try discriminate; cbn [payload default unset]; try reflexivity.
  - destruct (Z.eqb_spec z 0) as [->|E]; [reflexivity|]. apply N.eqb_neq. intros X. apply E.
    pose proof (num_of_int32 z H) as Q. rewrite X in Q. symmetry. exact Q.
  - destruct (Z.eqb_spec z 0) as [->|E]; [reflexivity|]. apply N.eqb_neq. intros X. apply E.
    pose proof (num_of_uint32 z H) as Q. rewrite X in Q. symmetry. exact Q.
  - destruct H as [->| ->]; reflexivity.
Qed.

Lemma all_some_map : forall A B (g : A -> option B) l l', Forall2 (fun a b => g a = Some b) l l' -> all_some (map g l) = Some l'.
Proof. intros A B g l l' H. induction H as [|a b l l' E H IH]; [reflexivity|]. cbn. rewrite E, IH. reflexivity. Qed.

Lemma all_some_app : forall A (a b : list (option A)) x y, all_some a = Some x -> all_some b = Some y -> all_some (a ++ b) = Some (x ++ y).
Proof.
  induction a as [|o a IH]; cbn; intros b x y H1 H2; [injection H1 as <-; exact H2|].
  destruct o as [o|]; [|discriminate]. destruct (all_some a) as [s|] eqn:E; [|discriminate]. injection H1 as <-. rewrite (IH b s y eq_refl H2). reflexivity.
Qed.

Lemma all_some_fields : forall A B (g : A -> option (list B)) (e : field -> list A) (x : field -> list B) fs,
  (forall f, In f fs -> exists ls, all_some (map g (e f)) = Some ls /\ concat ls = x f) ->
  exists ls, all_some (map g (flat_map e fs)) = Some ls /\ concat ls = flat_map x fs.
Proof.
  intros A B g e x. induction fs as [|f fs IH]; intros H; [exists []; split; reflexivity|].
  destruct (H f (or_introl eq_refl)) as (a & Ea & Ca). destruct (IH (fun h I => H h (or_intror I))) as (b & Eb & Cb).
  exists (a ++ b). cbn [flat_map]. rewrite map_app, concat_app, Ca, Cb. split; [apply all_some_app; assumption|reflexivity].
Qed.

Lemma concat_single : forall A B (h : A -> B) l, concat (map (fun a => [h a]) l) = map h l.
Proof. induction l as [|a l IH]; [reflexivity|]. cbn. f_equal. exact IH. Qed.

(* one record for each value *)
Lemma singles : forall sub t f rs (vs : list val), In f (fields t) ->
  Forall2 (fun r v => read_values sub f r = Some [v]) rs vs ->
  exists ls, all_some (map (read_record sub t) (map (pair (fnum f)) rs)) = Some ls /\ concat ls = map (pair (fnum f)) vs.
Proof.
  intros sub t f rs vs I H. exists (map (fun v => [(fnum f, v)]) vs). split; [|apply concat_single].
  apply all_some_map. induction H as [|r v rs vs E H IH]; [constructor|]. constructor; [|exact IH].
  unfold read_record. cbn [fst snd]. rewrite field_no_in by exact I. rewrite E. reflexivity.
Qed.

Lemma forall2_map_same : forall A B C (P : B -> C -> Prop) (g : A -> B) (h : A -> C) l,
  (forall a, In a l -> P (g a) (h a)) -> Forall2 P (map g l) (map h l).
Proof. induction l as [|a l IH]; intros H; [constructor|]. constructor; [apply H; left; reflexivity|apply IH; intros; apply H; right; assumption]. Qed.

Lemma filter_map_comm : forall A B (g : A -> B) (p : B -> bool) (q : A -> bool) l, (forall a, In a l -> p (g a) = q a) ->
  filter p (map g l) = map g (filter q l).
Proof.
  induction l as [|a l IH]; intros H; [reflexivity|]. cbn. rewrite H by (left; reflexivity).
  rewrite IH by (intros; apply H; right; assumption). destruct (q a); reflexivity.
Qed.

Lemma scalar_values : forall sub f v, is_msg (fkind f) = false -> well_typed (fkind f) v ->
  read_values sub f (payload (fkind f) v) = Some [v].
Proof.
  intros sub f v K W. unfold read_values. destruct (fkind f) eqn:E; try discriminate.
  - destruct (num_back KInt32 v eq_refl W) as (z & -> & Q & P). rewrite P, Q. reflexivity.
  - destruct (num_back KUint32 v eq_refl W) as (z & -> & Q & P). rewrite P, Q. reflexivity.
  - destruct (num_back KBool v eq_refl W) as (z & -> & Q & P). rewrite P, Q. reflexivity.
  - inversion W; subst. reflexivity.
  - inversion W; subst. reflexivity.
Qed.

Lemma packed_values : forall sub f vs, packable (fkind f) = true -> frep f = true -> Forall (well_typed (fkind f)) vs ->
  read_values sub f (RLen (flat_map raw_bytes (map (payload (fkind f)) vs))) = Some vs.
Proof.
  intros sub f vs K R W. unfold read_values. rewrite R. destruct (fkind f); try discriminate.
  - apply unpack_var_ok; [reflexivity|exact W|lia].
  - apply unpack_var_ok; [reflexivity|exact W|lia].
  - apply unpack_var_ok; [reflexivity|exact W|lia].
  - apply unpack_fix_ok; [exact W|lia].
Qed.

Definition nested_ok (sub : string -> bytes -> option message) (d : nat) (k : kind) (v : val) : Prop :=
  forall t' m', k = KMsg t' -> v = VMsg m' -> sub t' (serialize t' m') = Some (order d t' m').

Lemma emit_ok : forall sub d t f vs, In f (fields t) -> Forall (well_typed (fkind f)) vs ->
  (forall v, In v vs -> nested_ok sub d (fkind f) v) ->
  exists ls, all_some (map (read_record sub t) (emit f (map (payload (fkind f)) vs))) = Some ls /\
    concat ls = map (pair (fnum f))
      match fkind f with
      | KMsg t' => map (fun v => VMsg (order d t' (parts_of v))) vs
      | _ => if frep f then vs else filter (fun v => negb (unset v)) vs
      end.
Proof.
  intros sub d t f vs I W N. unfold emit. destruct (frep f && packable (fkind f)) eqn:P.
  { apply andb_prop in P as [R P]. destruct vs as [|v0 vs0] eqn:Ev.
    - exists []. split; [reflexivity|]. destruct (fkind f); try discriminate; rewrite ?R; reflexivity.
    - rewrite <- Ev in *. destruct (map (payload (fkind f)) vs) as [|r0 rs0] eqn:Er; [subst; discriminate|]. rewrite <- Er.
      exists [map (pair (fnum f)) vs]. split.
      + cbn [map all_some]. unfold read_record. cbn [fst snd]. rewrite field_no_in by exact I. rewrite packed_values by assumption. reflexivity.
      + cbn [concat]. rewrite app_nil_r. destruct (fkind f); try discriminate; rewrite ?R; reflexivity. }
  destruct (is_msg (fkind f)) eqn:M.
  { rewrite orb_true_r. destruct (fkind f) as [| | | | |t'] eqn:K; try discriminate.
    apply singles; [exact I|]. apply forall2_map_same. intros v Iv. pose proof (proj1 (Forall_forall _ _) W v Iv) as Wv.
    inversion Wv as [| | | | |t0 m' A B C]; subst. unfold read_values. rewrite K. cbn [payload parts_of].
    pose proof (N _ Iv t' m' eq_refl eq_refl) as Q. unfold serialize, records in Q. rewrite Q. reflexivity. }
  rewrite orb_false_r. destruct (frep f) eqn:R.
  - assert (E : match fkind f with KMsg t' => map (fun v => VMsg (order d t' (parts_of v))) vs | _ => vs end = map (fun v => v) vs)
      by (rewrite map_id; destruct (fkind f); try discriminate; reflexivity).
    rewrite E. apply singles; [exact I|]. apply forall2_map_same. intros v Iv. apply scalar_values; [exact M|].
    exact (proj1 (Forall_forall _ _) W v Iv).
  - assert (E : match fkind f with KMsg t' => map (fun v => VMsg (order d t' (parts_of v))) vs | _ => filter (fun v => negb (unset v)) vs end
      = map (fun v => v) (filter (fun v => negb (unset v)) vs))
      by (rewrite map_id; destruct (fkind f); try discriminate; reflexivity).
    rewrite E. rewrite (filter_map_comm _ _ (payload (fkind f)) _ (fun v => negb (unset v)))
      by (intros v Iv; rewrite default_unset; [reflexivity|exact (proj1 (Forall_forall _ _) W v Iv)|exact M]).
    apply singles; [exact I|]. apply forall2_map_same. intros v Iv. apply filter_In in Iv as [Iv _]. apply scalar_values; [exact M|].
    exact (proj1 (Forall_forall _ _) W v Iv).
Qed.

(** ** Lengths *)

Lemma length_in : forall rs e, In e rs -> (length (rec_bytes e) <= length (flat_map rec_bytes rs))%nat.
Proof.
  induction rs as [|a rs IH]; intros e I; [destruct I|]. cbn [flat_map]. rewrite app_length.
  destruct I as [<-|I]; [lia|]. specialize (IH e I). lia.
Qed.

Lemma len_in : forall rs k s, In (k, RLen s) rs -> (length s <= length (flat_map rec_bytes rs))%nat.
Proof.
  intros rs k s I. pose proof (length_in rs _ I) as L. pose proof (rec_bytes_length (k, RLen s)) as G.
  cbn [snd raw_bytes] in G. rewrite app_length in G. lia.
Qed.

Lemma entries_typed : forall t m f, well_typed (KMsg t) (VMsg m) -> In f (fields t) -> Forall (well_typed (fkind f)) (entries (fnum f) m).
Proof.
  intros t m f W I. inversion W as [| | | | |t0 m0 A B C]; subst. apply Forall_forall. intros v Iv. apply entries_in in Iv.
  destruct (A _ _ Iv) as (g & Ig & E & Wg). rewrite (nodup_same _ _ _ (nums_nodup t) I Ig (eq_sym E)). exact Wg.
Qed.

Lemma records_fields : forall t m,
  records t m = flat_map (fun f => emit f (map (payload (fkind f)) (entries (fnum f) m))) (fields t).
Proof.
  intros t m. unfold records, lay_out. rewrite !flat_map_concat_map. f_equal. apply map_ext_in. intros f I.
  rewrite (entries_map _ _ (fun k v => payload (kind_of t k) v)). rewrite kind_of_in by exact I. reflexivity.
Qed.

Lemma emit_cases : forall f rs e, In e (emit f rs) ->
  fst e = fnum f /\ ((exists s, snd e = RLen s) \/ (In (snd e) rs)).
Proof.
  intros f rs e I. unfold emit in I. destruct (frep f && packable (fkind f)).
  - destruct rs as [|r rs]; [destruct I|]. destruct I as [<-|[]]. split; [reflexivity|left; eexists; reflexivity].
  - destruct (frep f || is_msg (fkind f)).
    + apply in_map_iff in I as (r & <- & I). split; [reflexivity|right; exact I].
    + apply in_map_iff in I as (r & <- & I). apply filter_In in I as [I _]. split; [reflexivity|right; exact I].
Qed.

Lemma payload_ok : forall k v, well_typed k v -> (exists s, payload k v = RLen s) \/ ok_raw (payload k v).
Proof.
  intros k v W. destruct W; cbn [payload]; try (right; apply var_bound); try (left; eexists; reflexivity). right. assumption.
Qed.

Lemma records_ok : forall t m, well_typed (KMsg t) (VMsg m) -> N.of_nat (length (serialize t m)) < int_max -> Forall ok_rec (records t m).
Proof.
  intros t m W L. apply Forall_forall. intros [k p] I. pose proof I as I0. rewrite records_fields in I. apply in_flat_map in I as (f & F & I).
  apply emit_cases in I as (E & Q). cbn [fst snd] in *. subst k. split; [exact (proj1 (field_good t f F))|]. cbn [snd].
  assert (X : forall s, p = RLen s -> ok_raw p).
  { intros s ->. cbn [ok_raw]. pose proof (len_in _ _ _ I0) as Y. fold (serialize t m) in Y. change (flat_map rec_bytes (records t m)) with (serialize t m) in Y. lia. }
  destruct Q as [(s & ->)|Q]; [apply (X s); reflexivity|].
  apply in_map_iff in Q as (v & <- & Iv). destruct (payload_ok (fkind f) v) as [(s & E)|O]; [|apply (X s); exact E|exact O].
  exact (proj1 (Forall_forall _ _) (entries_typed t m f W F) v Iv).
Qed.

Lemma read_back : forall d t m, deep d t = true -> well_typed (KMsg t) (VMsg m) -> N.of_nat (length (serialize t m)) < int_max ->
  read_message d t (serialize t m) = Some (order d t m).
Proof.
  induction d as [|d IH]; intros t m D W L; [discriminate|]. cbn [read_message order].
  unfold serialize at 2. rewrite read_recs_ok; [|apply records_ok; assumption|unfold serialize; lia].
  rewrite records_fields.
  destruct (all_some_fields _ _ (read_record (read_message d) t)
    (fun f => emit f (map (payload (fkind f)) (entries (fnum f) m)))
    (fun f => map (pair (fnum f))
          match fkind f with
          | KMsg t' => map (fun v => VMsg (order d t' (parts_of v))) (entries (fnum f) m)
          | _ => if frep f then entries (fnum f) m else filter (fun v => negb (unset v)) (entries (fnum f) m)
          end) (fields t)) as (ls & E & C);
    [|exact (eq_trans (f_equal (fun o => match o with None => None | Some ms => Some (concat ms) end) E) (f_equal Some C))].
  intros f F. apply emit_ok; [exact F|apply (entries_typed t m f W F)|].
  intros v Iv t' m' K ->. apply IH.
  - pose proof (proj1 (forallb_forall _ _) D f F) as Q. cbn beta in Q. rewrite K in Q. exact Q.
  - rewrite <- K. exact (proj1 (Forall_forall _ _) (entries_typed t m f W F) _ Iv).
  - assert (In (fnum f, RLen (serialize t' m')) (records t m)) as Y.
    { rewrite records_fields. apply in_flat_map. exists f. split; [exact F|]. unfold emit. rewrite K. cbn [packable is_msg]. rewrite andb_false_r, orb_true_r.
      apply in_map_iff. exists (RLen (serialize t' m')). split; [reflexivity|]. apply in_map_iff. exists (VMsg m'). split; [reflexivity|exact Iv]. }
    pose proof (len_in _ _ _ Y) as Z. change (flat_map rec_bytes (records t m)) with (serialize t m) in Z. lia.
Qed.
