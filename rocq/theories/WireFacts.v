(** * Facts about the binary form of messages *)
From Coq Require Import String.
From Coq Require Import List NArith ZArith Bool Lia.
From Verif Require Import Collect CollectFacts Schema Wire WireSpec.
Import ListNotations.
Local Open Scope N_scope.

(** ** The table of types *)

Fixpoint distinct (l : list N) : bool :=
  match l with [] => true | a :: r => negb (existsb (N.eqb a) r) && distinct r end.

Fixpoint deep (d : nat) (t : string) : bool :=
  match d with
  | O => false
  | S d' => forallb (fun f => match fkind f with KMsg t' => deep d' t' | _ => true end) (fields t)
  end.

Definition good_field (f : field) : bool :=
  (1 <=? fnum f) && (fnum f <? 1000) &&
  match fone f with Some _ => is_msg (fkind f) && negb (frep f) | None => true end.

Lemma table_ok : forallb (fun e => distinct (map fnum (snd e)) && forallb good_field (snd e)
  && forallb (fun f => match fkind f with KMsg t' => deep 99 t' | _ => true end) (snd e)) types = true.
Proof. vm_compute. reflexivity. Qed.

Lemma fields_in : forall t, fields t = [] \/ exists e, In e types /\ fields t = snd e.
Proof.
  intros t. unfold fields. destruct (find _ types) as [e|] eqn:E; [|left; reflexivity].
  right. exists e. split; [exact (proj1 (find_some _ _ E))|reflexivity].
Qed.

Lemma fields_ok : forall t, distinct (map fnum (fields t)) = true /\ forallb good_field (fields t) = true /\ deep 100 t = true.
Proof.
  intros t. change (deep 100 t) with (forallb (fun f => match fkind f with KMsg t' => deep 99 t' | _ => true end) (fields t)).
  destruct (fields_in t) as [->|(e & I & ->)]; [repeat split|].
  pose proof (proj1 (forallb_forall _ _) table_ok e I) as H. apply andb_prop in H as [H H3]. apply andb_prop in H as [H1 H2].
  repeat split; assumption.
Qed.

Lemma distinct_nodup : forall l, distinct l = true -> NoDup l.
Proof.
  induction l as [|a l IH]; intros H; [constructor|]. cbn in H. apply andb_prop in H as [H1 H2]. constructor; [|auto].
  intros I. apply negb_true_iff in H1. assert (X : existsb (N.eqb a) l = true); [|congruence].
  apply existsb_exists. exists a. split; [exact I|apply N.eqb_refl].
Qed.

Lemma nums_nodup : forall t, NoDup (map fnum (fields t)).
Proof. intros t. apply distinct_nodup, fields_ok. Qed.

Lemma field_good : forall t f, In f (fields t) -> 1 <= fnum f < 1000 /\ (fone f <> None -> is_msg (fkind f) = true /\ frep f = false).
Proof.
  intros t f I. pose proof (proj1 (forallb_forall _ _) (proj1 (proj2 (fields_ok t))) f I) as H. unfold good_field in H.
  apply andb_prop in H as [H H3]. apply andb_prop in H as [H1 H2]. apply N.leb_le in H1. apply N.ltb_lt in H2. split; [lia|].
  intros N. destruct (fone f); [|congruence]. apply andb_prop in H3 as [A B]. split; [exact A|]. apply negb_true_iff, B.
Qed.

Lemma nodup_same : forall (l : list field) f g, NoDup (map fnum l) -> In f l -> In g l -> fnum f = fnum g -> f = g.
Proof.
  induction l as [|a l IH]; cbn; intros f g N F G E; [tauto|]. inversion N as [|x y A B]; subst.
  destruct F as [<-|F], G as [<-|G]; auto.
  - exfalso. apply A. rewrite E. apply in_map, G.
  - exfalso. apply A. rewrite <- E. apply in_map, F.
Qed.

Lemma field_no_in : forall t f, In f (fields t) -> field_no t (fnum f) = Some f.
Proof.
  intros t f I. unfold field_no. destruct (find _ (fields t)) as [g|] eqn:E.
  - apply find_some in E as [G E]. apply N.eqb_eq in E. f_equal. exact (nodup_same _ _ _ (nums_nodup t) G I E).
  - exfalso. pose proof (find_none _ _ E f I) as X. cbn in X. rewrite N.eqb_refl in X. discriminate.
Qed.

Lemma kind_of_in : forall t f, In f (fields t) -> kind_of t (fnum f) = fkind f.
Proof. intros t f I. unfold kind_of. rewrite field_no_in by exact I. reflexivity. Qed.

(** ** Entries *)

Lemma entries_app : forall A k (a b : list (N * A)), entries k (a ++ b) = entries k a ++ entries k b.
Proof. intros. unfold entries. rewrite filter_app, map_app. reflexivity. Qed.

Lemma entries_self : forall A k (vs : list A), entries k (map (pair k) vs) = vs.
Proof. unfold entries. induction vs as [|v vs IH]; [reflexivity|]. cbn. rewrite N.eqb_refl. cbn. f_equal. exact IH. Qed.

Lemma entries_other : forall A k j (vs : list A), j <> k -> entries k (map (pair j) vs) = [].
Proof. unfold entries. induction vs as [|v vs IH]; intros H; [reflexivity|]. cbn. rewrite (proj2 (N.eqb_neq j k) H). auto. Qed.

Lemma entries_none : forall A k (h : field -> list A) fs, ~ In k (map fnum fs) ->
  entries k (flat_map (fun g => map (pair (fnum g)) (h g)) fs) = [].
Proof.
  induction fs as [|g fs IH]; intros H; [reflexivity|]. cbn [flat_map]. rewrite entries_app, entries_other, IH; [reflexivity| |].
  - intros X. apply H. right. exact X.
  - intros X. apply H. left. exact X.
Qed.

Lemma entries_layout : forall A (h : field -> list A) fs f, NoDup (map fnum fs) -> In f fs ->
  entries (fnum f) (flat_map (fun g => map (pair (fnum g)) (h g)) fs) = h f.
Proof.
  induction fs as [|g fs IH]; intros f N I; [destruct I|]. cbn [flat_map]. inversion N as [|x y A1 B]; subst. rewrite entries_app.
  destruct I as [<-|I].
  - rewrite entries_self, entries_none, app_nil_r by assumption. reflexivity.
  - rewrite entries_other, IH by (try assumption; intros E; apply A1; rewrite E; apply in_map; exact I). reflexivity.
Qed.

Lemma entries_map : forall A B (g : N -> A -> B) k m,
  entries k (map (fun e => (fst e, g (fst e) (snd e))) m) = map (g k) (entries k m).
Proof.
  intros A B g k m. unfold entries. induction m as [|[j v] m IH]; [reflexivity|]. cbn.
  destruct (N.eqb_spec j k) as [->|H]; [cbn; f_equal; exact IH|exact IH].
Qed.

Lemma entries_in : forall A k (v : A) m, In v (entries k m) <-> In (k, v) m.
Proof.
  intros A k v m. unfold entries. rewrite in_map_iff. split.
  - intros ([j w] & E & I). apply filter_In in I as [I Q]. cbn in *. apply N.eqb_eq in Q. subst. exact I.
  - intros I. exists (k, v). split; [reflexivity|]. apply filter_In. split; [exact I|apply N.eqb_refl].
Qed.

(** ** Records *)

Lemma le_length : forall n b, length (le n b) = n.
Proof. induction n as [|n IH]; intros b; cbn; [reflexivity|]. rewrite IH. reflexivity. Qed.

Lemma un_le_le : forall n b, b < 256 ^ N.of_nat n -> un_le (le n b) = b.
Proof.
  induction n as [|n IH]; intros b H; [cbn in *; lia|]. cbn [le un_le]. rewrite IH.
  - pose proof (N.div_mod b 256 ltac:(lia)). lia.
  - apply N.div_lt_upper_bound; [lia|]. rewrite Nnat.Nat2N.inj_succ, N.pow_succ_r' in H. exact H.
Qed.

Lemma take_app : forall a r, take (length a) (a ++ r) = Some (a, r).
Proof.
  intros a r. unfold take. rewrite app_length. rewrite (proj2 (Nat.leb_le _ _)) by lia.
  rewrite firstn_app, Nat.sub_diag, firstn_all, skipn_app, Nat.sub_diag, skipn_all. cbn. rewrite app_nil_r. reflexivity.
Qed.

Lemma read_var_enc : forall n r, n < 2 ^ 64 -> read_var (enc 10 n ++ r) = Some (n, r).
Proof.
  intros n r H. unfold read_var. pose proof (dec_enc 9 n 0 r) as E. change (9 + 1 + 0)%nat with 10%nat in E. cbn [Nat.add] in E.
  rewrite E by (eapply N.lt_trans; [exact H|reflexivity]). rewrite N.mod_small by exact H. reflexivity.
Qed.

Definition ok_raw (r : raw) : Prop :=
  match r with
  | RVar n => n < 2 ^ 64
  | RFix b => b < 2 ^ 64
  | RLen s => N.of_nat (length s) < int_max
  | RFix4 b => b < 2 ^ 32
  end.

Lemma read_raw_ok : forall p r, ok_raw p -> read_raw (wire_type p) (raw_bytes p ++ r) = Some (p, r).
Proof.
  intros [n|b|s|b] r H; cbn [ok_raw raw_bytes wire_type] in *; unfold read_raw; cbn [N.eqb Pos.eqb].
  - rewrite read_var_enc by exact H. reflexivity.
  - rewrite <- (le_length 8 b) at 1. rewrite take_app, un_le_le by exact H. reflexivity.
  - rewrite <- app_assoc, read_varint_enc by exact H. rewrite (proj2 (N.ltb_lt _ _) H), Nnat.Nat2N.id, take_app. reflexivity.
  - rewrite <- (le_length 4 b) at 1. rewrite take_app, un_le_le by exact H. reflexivity.
Qed.

Definition ok_rec (e : N * raw) : Prop := 1 <= fst e < 1000 /\ ok_raw (snd e).

Lemma tag_ok : forall k p, 1 <= k < 1000 -> let tag := k * 8 + wire_type p in
  tag < int_max /\ (tag <? 8) = false /\ tag mod 8 = wire_type p /\ tag / 8 = k.
Proof.
  intros k p H tag. assert (W : wire_type p < 8) by (destruct p; reflexivity). repeat split.
  - change int_max with 2147483648. unfold tag. lia.
  - apply N.ltb_ge. unfold tag. lia.
  - unfold tag. rewrite N.add_comm, N.mod_add by lia. apply N.mod_small, W.
  - unfold tag. rewrite N.div_add_l by lia. rewrite N.div_small by exact W. lia.
Qed.

Lemma rec_bytes_length : forall e, (length (raw_bytes (snd e)) < length (rec_bytes e))%nat.
Proof. intros e. unfold rec_bytes. rewrite app_length. pose proof (varint_nonempty (fst e * 8 + wire_type (snd e))). lia. Qed.

Lemma read_recs_ok : forall rs fuel, Forall ok_rec rs -> (length (flat_map rec_bytes rs) < fuel)%nat ->
  read_recs fuel (flat_map rec_bytes rs) = Some rs.
Proof.
  induction rs as [|[k p] rs IH]; intros fuel H L; [destruct fuel; reflexivity|].
  inversion H as [|x y [H1 H2] H3]; subst. cbn [fst snd] in *. cbn [flat_map] in *.
  pose proof (rec_bytes_length (k, p)) as G. cbn [snd] in G. rewrite app_length in L.
  destruct (tag_ok k p H1) as (T1 & T2 & T3 & T4).
  destruct fuel as [|fuel]; [lia|]. destruct (rec_bytes (k, p) ++ flat_map rec_bytes rs) as [|b bs] eqn:E.
  { apply (f_equal (@length N)) in E. rewrite app_length in E. cbn [length] in E. lia. }
  cbn [read_recs]. rewrite <- E. unfold rec_bytes at 1. cbn [fst snd]. rewrite <- !app_assoc.
  rewrite read_varint_enc by exact T1. rewrite T2, T3, read_raw_ok by exact H2. rewrite IH by (try exact H3; lia). rewrite T4. reflexivity.
Qed.

(** ** Packed numbers *)

Lemma enc_pos : forall n, (0 < length (enc 10 n))%nat.
Proof. intros n. cbn [enc]. destruct (n <? 128); cbn; lia. Qed.

Lemma num_of_int32 : forall z, (- 2 ^ 31 <= z < 2 ^ 31)%Z -> num_of KInt32 (Z.to_N (z mod 2 ^ 64)) = z.
Proof.
  intros z H. unfold num_of. rewrite N2Z.inj_mod, Z2N.id by (apply Z.mod_pos_bound; lia). change (Z.of_N (2 ^ 32)) with (2 ^ 32)%Z.
  rewrite <- Znumtheory.Zmod_div_mod; [|lia|lia|exists (2 ^ 32)%Z; reflexivity].
  destruct (Z.ltb_spec z 0) as [N|N].
  - replace (z mod 2 ^ 32)%Z with (z + 2 ^ 32)%Z by (symmetry; rewrite <- (Z.mod_small (z + 2 ^ 32) (2 ^ 32)) by lia; rewrite <- Z.add_mod_idemp_r, Z.mod_same, Z.add_0_r by lia; reflexivity).
    destruct (Z.ltb_spec (z + 2 ^ 32) (2 ^ 31)); lia.
  - rewrite Z.mod_small by lia. destruct (Z.ltb_spec z (2 ^ 31)); lia.
Qed.

Lemma num_of_uint32 : forall z, (0 <= z < 2 ^ 32)%Z -> num_of KUint32 (Z.to_N (z mod 2 ^ 64)) = z.
Proof.
  intros z H. unfold num_of. rewrite N2Z.inj_mod, Z2N.id by (apply Z.mod_pos_bound; lia). change (Z.of_N (2 ^ 32)) with (2 ^ 32)%Z.
  rewrite (Z.mod_small z (2 ^ 64)) by lia. apply Z.mod_small. lia.
Qed.

Lemma num_of_bool : forall z, (z = 0 \/ z = 1)%Z -> num_of KBool (Z.to_N (z mod 2 ^ 64)) = z.
Proof. intros z [->| ->]; reflexivity. Qed.

Lemma var_bound : forall z, Z.to_N (z mod 2 ^ 64) < 2 ^ 64.
Proof. intros z. pose proof (Z.mod_pos_bound z (2 ^ 64) ltac:(lia)). change (2 ^ 64) with (Z.to_N (2 ^ 64)). apply Z2N.inj_lt; lia. Qed.

Definition is_num (k : kind) : bool := match k with KInt32 | KUint32 | KBool => true | _ => false end.

Lemma num_back : forall k v, is_num k = true -> well_typed k v -> exists z, v = VInt z /\ num_of k (Z.to_N (z mod 2 ^ 64)) = z /\ payload k v = RVar (Z.to_N (z mod 2 ^ 64)).
Proof.
  intros k v K W. destruct W; try discriminate; eexists; (split; [reflexivity|]).
  - split; [apply num_of_int32; assumption|reflexivity].
  - split; [apply num_of_uint32; assumption|reflexivity].
  - split; [apply num_of_bool; assumption|reflexivity].
Qed.

Lemma unpack_var_ok : forall k vs fuel, is_num k = true -> Forall (well_typed k) vs ->
  (length (flat_map raw_bytes (map (payload k) vs)) < fuel)%nat ->
  unpack_var fuel k (flat_map raw_bytes (map (payload k) vs)) = Some vs.
Proof.
  intros k vs. induction vs as [|v vs IH]; intros fuel K W L; [destruct fuel; reflexivity|].
  inversion W as [|x y W1 W2]; subst. destruct (num_back _ _ K W1) as (z & -> & E & P). cbn [map flat_map] in *. rewrite P in *. cbn [raw_bytes] in *.
  rewrite app_length in L. pose proof (enc_pos (Z.to_N (z mod 2 ^ 64))) as G.
  destruct fuel as [|fuel]; [lia|]. destruct (enc 10 (Z.to_N (z mod 2 ^ 64)) ++ _) as [|b bs] eqn:Eb.
  { apply (f_equal (@length N)) in Eb. rewrite app_length in Eb. cbn [length] in Eb. lia. }
  cbn [unpack_var]. rewrite <- Eb, read_var_enc by apply var_bound. rewrite IH by (try assumption; lia). rewrite E. reflexivity.
Qed.

Lemma unpack_fix_ok : forall vs fuel, Forall (well_typed KDouble) vs ->
  (length (flat_map raw_bytes (map (payload KDouble) vs)) < fuel)%nat ->
  unpack_fix fuel (flat_map raw_bytes (map (payload KDouble) vs)) = Some vs.
Proof.
  intros vs. induction vs as [|v vs IH]; intros fuel W L; [destruct fuel; reflexivity|].
  inversion W as [|x y W1 W2]; subst. inversion W1 as [| | |b Hb| |]; subst. cbn [map flat_map payload raw_bytes] in *.
  rewrite app_length in L. pose proof (le_length 8 b) as G.
  destruct fuel as [|fuel]; [lia|]. destruct (le 8 b ++ _) as [|b0 bs] eqn:Eb.
  { apply (f_equal (@length N)) in Eb. rewrite app_length in Eb. cbn [length] in Eb. lia. }
  cbn [unpack_fix]. rewrite <- Eb. rewrite <- (le_length 8 b) at 1. rewrite take_app. rewrite IH by (try assumption; lia). rewrite un_le_le by exact Hb. reflexivity.
Qed.
