(** * A field given twice, and a nested message that cannot be read. *)
From Coq Require Import String.
From Coq Require Import List NArith ZArith Bool Lia.
From Verif Require Import Base Collect Schema Wire WireSpec WireFacts WireRead WireBack.
Import ListNotations.
Local Open Scope N_scope.

Lemma flat_map_none : forall A B (h : A -> list B) l, (forall a, In a l -> h a = []) -> flat_map h l = [].
Proof. intros A B h l H. induction l as [|a l IH]; [reflexivity|]. cbn [flat_map]. rewrite (H a (or_introl eq_refl)). apply IH. intros x I. apply H. right. exact I. Qed.

Lemma flat_map_one : forall A (h : field -> list A) fs f, NoDup fs -> In f fs -> (forall g, In g fs -> g <> f -> h g = []) -> flat_map h fs = h f.
Proof.
  intros A h fs f. induction fs as [|g fs IH]; intros ND F H; [destruct F|]. inversion ND as [|x y NI ND']; subst. cbn [flat_map]. destruct F as [<-|F].
  - assert (X : flat_map h fs = []).
    { apply flat_map_none. intros k I. apply H; [right; exact I|]. intros ->. contradiction. }
    rewrite X, app_nil_r. reflexivity.
  - rewrite (H g); [|left; reflexivity|intros ->; contradiction]. cbn [app]. apply IH; [exact ND'|exact F|]. intros x I N. apply H; [right; exact I|exact N].
Qed.

Lemma fields_nodup : forall t, NoDup (fields t).
Proof. intros t. apply (NoDup_map_inv fnum), nums_nodup. Qed.

Lemma ok_payload : forall k v, well_typed k v -> is_msg k = false -> (forall s, v = VStr s -> N.of_nat (length s) < int_max) -> ok_raw (payload k v).
Proof.
  intros k v W M L. destruct (payload_ok k v W) as [[s E]|O]; [|exact O]. destruct W; try discriminate M; cbn in E |- *; try discriminate E.
  injection E as <-. apply (L _ eq_refl).
Qed.

Lemma read_twice : forall d t f v w, In f (fields t) -> is_msg (fkind f) = false -> well_typed (fkind f) v -> well_typed (fkind f) w ->
  (forall s, v = VStr s \/ w = VStr s -> N.of_nat (length s) < int_max) ->
  read_message (S d) t (rec_bytes (fnum f, payload (fkind f) v) ++ rec_bytes (fnum f, payload (fkind f) w)) = Some [(fnum f, v); (fnum f, w)].
Proof.
  intros d t f v w F M V W L. set (rs := [(fnum f, payload (fkind f) v); (fnum f, payload (fkind f) w)]).
  assert (E : rec_bytes (fnum f, payload (fkind f) v) ++ rec_bytes (fnum f, payload (fkind f) w) = flat_map rec_bytes rs) by (cbn [flat_map rs]; now rewrite app_nil_r).
  rewrite E. cbn [read_message]. rewrite read_recs_ok; [|repeat constructor; cbn [fst snd]|apply Nat.lt_succ_diag_r].
  - cbn [map rs]. unfold read_record. cbn [fst snd]. rewrite (field_no_in t f F), (scalar_values _ f v M V), (scalar_values _ f w M W). reflexivity.
  - apply (field_good t f F).
  - apply (field_good t f F).
  - apply ok_payload; auto.
  - apply (field_good t f F).
  - apply (field_good t f F).
  - apply ok_payload; auto.
Qed.

Lemma merged_twice : forall d t f v w, In f (fields t) -> is_msg (fkind f) = false -> frep f = false ->
  merged (S d) t [(fnum f, v); (fnum f, w)] = if unset w then [] else [(fnum f, w)].
Proof.
  intros d t f v w F M R. cbn [merged]. rewrite clear_id.
  - rewrite (flat_map_one _ _ (fields t) f (fields_nodup t) F).
    + cbn [entries filter map fst snd]. unfold entries. cbn [filter fst]. rewrite N.eqb_refl. cbn [map snd]. rewrite R.
      destruct (fkind f); try discriminate M; unfold last_set; cbn [rev app]; destruct (unset w); reflexivity.
    + intros g G N. assert (X : entries (fnum g) [(fnum f, v); (fnum f, w)] = []).
      { unfold entries. cbn [filter fst]. destruct (N.eqb_spec (fnum f) (fnum g)) as [E|E]; [|reflexivity].
        exfalso. apply N. symmetry. exact (nodup_same (fields t) f g (nums_nodup t) F G E). }
      rewrite X. destruct (fkind g); destruct (frep g); reflexivity.
  - intros e a [<-|[<-|[]]] [<-|[<-|[]]]; unfold clears; cbn [fst]; rewrite (field_no_in t f F), N.eqb_refl; reflexivity.
Qed.

(** A nested message of one byte that asks for a continuation. *)
Lemma read_cut_nested : forall d t f t' b, In f (fields t) -> fkind f = KMsg t' -> 128 <= b < 256 ->
  read_message (S d) t (rec_bytes (fnum f, RLen [b])) = None.
Proof.
  intros d t f t' b F K B. assert (E : rec_bytes (fnum f, RLen [b]) = flat_map rec_bytes [(fnum f, RLen [b])]) by (cbn [flat_map]; now rewrite app_nil_r).
  rewrite E. cbn [read_message]. rewrite read_recs_ok; [|repeat constructor; try apply (field_good t f F); cbn; reflexivity|apply Nat.lt_succ_diag_r].
  cbn [map]. unfold read_record. cbn [fst snd]. rewrite (field_no_in t f F). unfold read_values. rewrite K.
  assert (X : read_message d t' [b] = None).
  { destruct d as [|d]; [reflexivity|]. cbn [read_message length read_recs]. unfold read_varint. cbn [dec]. destruct (N.ltb_spec b 128); [lia|]. reflexivity. }
  rewrite X. reflexivity.
Qed.
