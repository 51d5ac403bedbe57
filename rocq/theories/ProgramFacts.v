(** * Facts about the main program on univariate data *)
From Coq Require Import String Ascii.
From Coq Require Import List NArith ZArith Bool Reals Lia Eqdep_dec.
From Verif Require NumText Utils.
From Verif Require Import Base Hier Algos Run Collect CollectFacts CollectMore Schema Wire WireSpec WireInst P_Wire Text Mixings Univ Settings RealInst UnivInst StateMsg StateMsgSpec StateMsgFacts Main Launch Program.
Import ListNotations.
Local Open Scope N_scope.

(** ** Bytes *)
Definition small (l : bytes) : Prop := Forall (fun b => b < 256) l.

Lemma small_app : forall a b, small a -> small b -> small (a ++ b).
Proof. intros a b A B. apply Forall_app. split; assumption. Qed.
Lemma small_flat : forall A (f : A -> bytes) l, (forall x, In x l -> small (f x)) -> small (flat_map f l).
Proof. intros A f l H. apply Forall_forall. intros b I. apply in_flat_map in I as (x & I & J). exact (proj1 (Forall_forall _ _) (H x I) b J). Qed.
Lemma enc_small : forall n x, small (enc n x).
Proof.
  induction n as [|n IH]; intro x; cbn [enc]; [constructor|]. destruct (x <? 128) eqn:E.
  - apply N.ltb_lt in E. constructor; [lia|constructor].
  - constructor; [|apply IH]. pose proof (N.mod_upper_bound x 128 ltac:(lia)). lia.
Qed.
Lemma le_small : forall n b, small (le n b).
Proof. induction n as [|n IH]; intro b; cbn [le]; [constructor|]. constructor; [apply N.mod_upper_bound; lia|apply IH]. Qed.

Definition raw_small (r : raw) : Prop := match r with RLen s => small s | _ => True end.
Lemma raw_bytes_small : forall r, raw_small r -> small (raw_bytes r).
Proof. intros [n|b|s|b] H; cbn [raw_bytes raw_small] in *; [apply enc_small|apply le_small|apply small_app; [apply enc_small|exact H]|apply le_small]. Qed.
Lemma rec_bytes_small : forall e, raw_small (snd e) -> small (rec_bytes e).
Proof. intros e H. apply small_app; [apply enc_small|apply raw_bytes_small, H]. Qed.

Lemma lay_out_small : forall t ps, (forall e, In e ps -> raw_small (snd e)) -> forall e, In e (lay_out t ps) -> raw_small (snd e).
Proof.
  intros t ps H e I. apply in_flat_map in I as (f & _ & I).
  assert (X : forall r, In r (entries (fnum f) ps) -> raw_small r).
  { intros r J. unfold entries in J. apply in_map_iff in J as (p & <- & J). apply filter_In in J as [J _]. exact (H p J). }
  revert X I. generalize (entries (fnum f) ps) as rs. intros rs X I. unfold emit in I. destruct (frep f && packable (fkind f)).
  - destruct rs as [|r rs]; [destruct I|]. destruct I as [<-|[]]. cbn [snd raw_small]. apply small_flat. intros x J. apply raw_bytes_small, X, J.
  - destruct (frep f || is_msg (fkind f)); apply in_map_iff in I as (r & <- & J); cbn [snd]; apply X; [exact J|]. apply filter_In in J. tauto.
Qed.

Fixpoint no_text (v : val) : bool :=
  match v with VStr _ => false | VMsg m => forallb (fun e => no_text (snd e)) m | _ => true end.
Fixpoint payload_small (v : val) : forall k, no_text v = true -> raw_small (payload k v).
Proof.
  intros k H. destruct v as [z|b|s|m]; [destruct k; exact Logic.I|destruct k; exact Logic.I|discriminate|].
  destruct k as [| | | | |t]; try (constructor; fail). cbn [payload raw_small]. apply small_flat. intros e J. apply rec_bytes_small. revert e J. apply lay_out_small.
  cbn [no_text] in H. induction m as [|[n w] m IH]; intros e J; [destruct J|]. cbn [forallb snd] in H. apply andb_prop in H as [H1 H2]. destruct J as [<-|J].
  - cbn [fst snd]. apply payload_small. exact H1.
  - exact (IH H2 e J).
Qed.
Lemma serialize_small : forall t m, no_text (VMsg m) = true -> small (serialize t m).
Proof. intros t m H. exact (payload_small (VMsg m) (KMsg t) H). Qed.

Lemma state_no_text : forall dbl k, no_text (VMsg (state_msg dbl k)) = true.
Proof.
  intros dbl k. cbn [no_text]. unfold state_msg. rewrite !forallb_app. rewrite !andb_true_iff. repeat split.
  - apply forallb_forall. intros e I. apply in_map_iff in I as (c & <- & _). reflexivity.
  - apply forallb_forall. intros e I. apply in_map_iff in I as (c & <- & _). reflexivity.
  - cbn [forallb snd no_text]. destruct (k_mix k), (k_hyp k); reflexivity.
Qed.

Lemma bytes_chars : forall bs, small bs -> bytes_of (chars_of bs) = bs.
Proof.
  intros bs H. unfold bytes_of, chars_of. rewrite list_ascii_of_string_of_list_ascii, map_map. induction H as [|b bs B H IH]; [reflexivity|].
  cbn [map]. rewrite IH. f_equal. apply N_ascii_embedding. exact B.
Qed.

(** ** The chain file *)
Lemma as_saved_ok : forall m (H : sound m = true), as_saved m = Some (exist _ m H).
Proof. intros m H. unfold as_saved. destruct (bool_dec (sound m) true) as [E|E]; [|contradiction]. f_equal. f_equal. apply UIP_dec. apply bool_dec. Qed.

Lemma sound_parts : forall m, sound m = true -> settled AS m = true /\ N.of_nat (length (serialize AS m)) < int_max /\ small (serialize AS m).
Proof.
  intros m H. unfold sound in H. apply andb_prop in H as [H H3]. apply andb_prop in H as [H1 H2]. split; [exact H1|]. split; [apply N.ltb_lt, H2|].
  apply Forall_forall. intros b I. apply N.ltb_lt. exact (proj1 (forallb_forall _ _) H3 b I).
Qed.

Lemma chain_law : forall m : Msg chain_proto, parse chain_proto (ser chain_proto m) = Some m.
Proof.
  intros [m H]. cbn [chain_proto parse ser proj1_sig]. destruct (sound_parts m H) as (Q & _ & _). unfold settled in Q.
  destruct (parse_message AS (serialize AS m)) as [m'|] eqn:E; [|discriminate]. apply msg_eqb_eq in Q. subst m'. apply as_saved_ok.
Qed.
Lemma chain_fits : forall m : Msg chain_proto, fits chain_proto m = true.
Proof. intros [m H]. unfold fits. cbn [chain_proto ser proj1_sig]. apply N.ltb_lt. exact (proj1 (proj2 (sound_parts m H))). Qed.

Lemma written_small : forall l, small (fc_written chain_proto l).
Proof.
  intro l. unfold fc_written. apply small_flat. intros m _. unfold delim. rewrite chain_fits. apply small_app; [apply enc_small|].
  destruct m as [m H]. exact (proj2 (proj2 (sound_parts m H))).
Qed.

Lemma decode_encode : forall l, decode (encode l) = Ok l.
Proof.
  intro l. unfold decode, encode. rewrite bytes_chars by apply written_small. rewrite (python_reads chain_proto chain_law). f_equal.
  induction l as [|m l IH]; [reflexivity|]. cbn [filter]. rewrite chain_fits, IH. reflexivity.
Qed.

(** ** Keeping a state *)
Section Keep.
  Variable dbl : R -> N.
  Hypothesis dbl_64 : forall x, dbl x < 2 ^ 64.

  Definition sized (k : kept) : Prop :=
    (Z.of_nat (k_iter k) < 2 ^ 31)%Z /\ (forall a, In a (k_alloc k) -> Z.of_nat a < 2 ^ 31)%Z /\
    (forall c, In c (k_clusters k) -> - 2 ^ 31 <= snd c < 2 ^ 31)%Z /\
    (N.of_nat (170 * length (k_clusters k) + 20 * length (k_alloc k) + 3000) < 2 ^ 31).

  Lemma keep_ok : forall k, sized k -> exists s : saved_state, keep (state_msg dbl k) = Ok s /\ recorded dbl k (proj1_sig s).
  Proof.
    intros k (H1 & H2 & H3 & H4). pose proof (state_len dbl k) as L. unfold keep. fold AS in L.
    assert (B : N.of_nat (length (serialize AS (state_msg dbl k))) < 2 ^ 31) by lia.
    destruct (C132_round_trip AS (state_msg dbl k) (state_typed dbl dbl_64 k H1 H2 H3) B) as (m' & E & S & Q). rewrite E.
    assert (X : sound m' = true).
    { unfold sound. rewrite Q. rewrite !andb_true_iff. repeat split.
      - unfold settled. rewrite Q, E. apply msg_eqb_eq. reflexivity.
      - apply N.ltb_lt. exact B.
      - apply forallb_forall. intros b I. apply N.ltb_lt. exact (proj1 (Forall_forall _ _) (serialize_small AS _ (state_no_text dbl k)) b I). }
    rewrite (as_saved_ok m' X). eexists. split; [reflexivity|]. cbn [proj1_sig]. apply (same_recorded dbl k _ m' S). apply message_recorded.
  Qed.
End Keep.

(** ** What the program reads from a kept state *)
Lemma recorded_allocs : forall dbl k (s : saved_state), recorded dbl k (proj1_sig s) -> allocs_of s = k_alloc k /\ nclus_of s = length (k_clusters k).
Proof.
  intros dbl k s (_ & (f & F & N & R & E) & (vs & (g & F' & N' & R' & E') & C) & _). split.
  - unfold allocs_of. cbn in F. repeat (destruct F as [<-|F]; [first [discriminate N | clear N]|]); [|contradiction].
    unfold reads in E. cbn [frep Schema.rep fnum] in E. rewrite E, map_map. rewrite <- (map_id (k_alloc k)) at 2. apply map_ext. intro a. apply Nat2Z.id.
  - unfold nclus_of. cbn in F'. repeat (destruct F' as [<-|F']; [first [discriminate N' | clear N']|]); [|contradiction].
    unfold reads in E'. cbn [frep Schema.rep fnum] in E'. rewrite E'. symmetry. clear -C. induction C as [|x y l m _ _ IH]; [reflexivity|]. cbn. f_equal. exact IH.
Qed.
