(** * Facts about reading a chain from R. *)
From Coq Require Import String.
From Coq Require Import Bool List Arith NArith Lia.
From Verif Require Import Base Collect CollectFacts RRead.
Import ListNotations.

Lemma raw_here : forall pre x t, raw_at (pre ++ x :: t) (length pre) = x.
Proof. intros. unfold raw_at. rewrite app_nth2, Nat.sub_diag by lia. reflexivity. Qed.

Lemma enc_length : forall f n, length (enc (S f) n) >= 1.
Proof. intros f n. cbn [enc]. destruct (n <? 128)%N; cbn; lia. Qed.

Lemma enc_le : forall f n, length (enc f n) <= f.
Proof. induction f as [|f IH]; intros n; cbn [enc]; [reflexivity|]. destruct (n <? 128)%N; cbn [length]; [lia|]. specialize (IH (n / 128)%N). lia. Qed.

Lemma r_dec_enc : forall f n e pre r, (n < 2 ^ (7 * N.of_nat (S f)))%N ->
  r_dec (S f + e) (pre ++ enc (S f) n ++ r) (length pre) = Some (n, length pre + length (enc (S f) n)).
Proof.
  induction f as [|f IH]; intros n e pre r Hn.
  - change (2 ^ (7 * N.of_nat 1))%N with 128%N in Hn. cbn [enc]. apply N.ltb_lt in Hn. rewrite Hn. cbn [Nat.add r_dec app].
    rewrite raw_here, Hn. reflexivity.
  - change (enc (S (S f)) n) with (if (n <? 128)%N then [n] else (n mod 128 + 128)%N :: enc (S f) (n / 128)).
    destruct (n <? 128)%N eqn:E.
    + cbn [Nat.add r_dec app]. rewrite raw_here, E. reflexivity.
    + change (S (S f) + e) with (S (S f + e)). cbn [r_dec]. rewrite <- app_comm_cons, raw_here.
      destruct (N.ltb_spec (n mod 128 + 128) 128) as [L|L]; [exfalso; clear -L; generalize dependent (n mod 128)%N; intros; lia|].
      replace (pre ++ (n mod 128 + 128)%N :: enc (S f) (n / 128) ++ r) with ((pre ++ [(n mod 128 + 128)%N]) ++ enc (S f) (n / 128) ++ r) by (rewrite <- app_assoc; reflexivity).
      replace (length pre + 1) with (length (pre ++ [(n mod 128 + 128)%N])) by (rewrite app_length; reflexivity).
      rewrite IH.
      * f_equal. f_equal.
        -- pose proof (N.div_mod n 128 ltac:(discriminate)) as DM. clear -DM. generalize dependent (n mod 128)%N. generalize dependent (n / 128)%N. intros; lia.
        -- rewrite app_length. cbn [length]. lia.
      * apply N.div_lt_upper_bound; [lia|]. eapply N.lt_le_trans; [exact Hn|].
        replace (7 * N.of_nat (S (S f)))%N with (7 + 7 * N.of_nat (S f))%N by lia.
        rewrite N.pow_add_r. reflexivity.
Qed.

Lemma r_dec_varint : forall n pre r, (n < int_max)%N ->
  r_dec 10 (pre ++ varint n ++ r) (length pre) = Some (n, length pre + length (varint n)).
Proof.
  intros n pre r Hn. unfold varint. apply (r_dec_enc 4 n 5). eapply N.lt_trans; [exact Hn|]. reflexivity.
Qed.

(** A length cut after [k] bytes: the missing byte reads as 0 and ends it. *)
Lemma r_dec_cut : forall f n g k pre, k < length (enc f n) -> k < g ->
  r_dec g (pre ++ firstn k (enc f n)) (length pre) = Some ((n mod 2 ^ (7 * N.of_nat k))%N, length pre + k + 1).
Proof.
  induction f as [|f IH]; intros n g k pre Hk Hg; [cbn in Hk; lia|].
  destruct g as [|g]; [lia|]. destruct k as [|k].
  - cbn [firstn r_dec]. rewrite app_nil_r. unfold raw_at. rewrite nth_overflow by lia. cbn [N.ltb N.compare].
    rewrite N.mul_0_r, N.pow_0_r, N.mod_1_r, Nat.add_0_r. reflexivity.
  - cbn [enc] in *. destruct (n <? 128)%N; [cbn in Hk; lia|]. cbn [firstn r_dec]. rewrite raw_here.
    destruct (N.ltb_spec (n mod 128 + 128) 128) as [L|L]; [exfalso; clear -L; generalize dependent (n mod 128)%N; intros; lia|].
    specialize (IH (n / 128)%N g k (pre ++ [(n mod 128 + 128)%N])). rewrite <- app_assoc, app_length in IH. cbn [app length] in IH.
    rewrite IH by (cbn [length] in Hk; lia). f_equal. f_equal; [|lia].
    replace (7 * N.of_nat (S k))%N with (7 + 7 * N.of_nat k)%N by lia. rewrite N.pow_add_r. change (2 ^ 7)%N with 128%N.
    rewrite N.mod_mul_r by (try discriminate; apply N.pow_nonzero; discriminate).
    generalize (n mod 128)%N ((n / 128) mod 2 ^ (7 * N.of_nat k))%N. intros; lia.
Qed.

(** A slice past the end is filled with zero bytes. *)
Lemma slice_padded : forall len pre r, 0 < len -> r_slice (pre ++ r) (length pre) len = firstn len r ++ repeat 0%N (len - length r).
Proof.
  intros [|len] pre r H; [lia|]. unfold r_slice. clear H. revert pre r. generalize (S len). clear len.
  induction n as [|n IH]; intros pre r; [reflexivity|]. cbn [seq map]. destruct r as [|x r].
  - unfold raw_at at 1. rewrite app_nil_r, nth_overflow by lia. cbn [firstn length app]. rewrite Nat.sub_0_r. cbn [repeat]. f_equal.
    specialize (IH (pre ++ [0%N]) []). rewrite app_nil_r, app_length, Nat.add_1_r in IH. rewrite firstn_nil, Nat.sub_0_r in IH. cbn [app] in IH.
    rewrite <- IH. apply map_ext_in. intros k Hk. apply in_seq in Hk. unfold raw_at. rewrite !nth_overflow; [reflexivity|rewrite app_length; cbn; lia|lia].
  - rewrite raw_here. cbn [firstn length app Nat.sub]. f_equal.
    specialize (IH (pre ++ [x]) r). rewrite app_length, Nat.add_1_r, <- app_assoc in IH. exact IH.
Qed.

Section R.
  Variable P : proto.
  Hypothesis law : forall m, parse P (ser P m) = Some m.
  Definition vlen (m : Msg P) : bytes := varint (N.of_nat (length (ser P m))).
  Lemma delim_fits : forall m, fits P m = true -> delim P m = vlen m ++ ser P m.
  Proof. intros m F. unfold delim. rewrite F. reflexivity. Qed.
  Lemma vlen_pos : forall m, 1 <= length (vlen m).
  Proof. intros m. apply enc_length. Qed.

  (** One turn of the loop at a record whose length is on file. *)
  Lemma r_turn : forall f pre m t, fits P m = true -> 2 <= length (vlen m ++ t) ->
    r_go P (S f) (pre ++ vlen m ++ t) (length pre) =
    match parse P (r_slice (pre ++ vlen m ++ t) (length pre + length (vlen m)) (length (ser P m))) with
    | Some x => ms <- r_go P f (pre ++ vlen m ++ t) (length pre + length (vlen m) + length (ser P m)) ;; Ok (x :: ms)
    | None => Throw "Something went wrong while deserialization"
    end.
  Proof.
    intros f pre m t F L. cbn [r_go]. replace (length pre + 1 <? _) with true by (symmetry; apply Nat.ltb_lt; rewrite app_length; lia).
    unfold fits in F. assert (Fm := proj1 (N.ltb_lt _ _) F). unfold vlen at 1. rewrite r_dec_varint by exact Fm. fold (vlen m).
    rewrite N.mod_small by (eapply N.lt_trans; [exact Fm|reflexivity]). rewrite F, Nnat.Nat2N.id. reflexivity.
  Qed.

  Lemma r_whole : forall f pre m t, fits P m = true -> ser P m <> [] ->
    r_go P (S f) (pre ++ delim P m ++ t) (length pre) =
    (ms <- r_go P f ((pre ++ delim P m) ++ t) (length (pre ++ delim P m)) ;; Ok (m :: ms)).
  Proof.
    intros f pre m t F NE. assert (Ls : 0 < length (ser P m)) by (destruct (ser P m); [congruence|cbn; lia]). pose proof (vlen_pos m).
    rewrite (delim_fits m F), <- app_assoc. rewrite r_turn; [|exact F|rewrite !app_length; lia].
    replace (pre ++ vlen m ++ ser P m ++ t) with ((pre ++ vlen m) ++ ser P m ++ t) by (rewrite <- app_assoc; reflexivity).
    rewrite <- app_length, slice_padded by exact Ls.
    rewrite firstn_app, firstn_all, Nat.sub_diag, firstn_O, app_nil_r. replace (length (ser P m) - length (ser P m ++ t)) with 0 by (rewrite app_length; lia).
    cbn [repeat]. rewrite app_nil_r, law. rewrite <- app_length, <- !app_assoc. reflexivity.
  Qed.

  (** What comes back from a whole file. *)
  Fixpoint r_expect (ms : list (Msg P)) : res (list (Msg P)) :=
    match ms with
    | [] => Ok []
    | m :: rest =>
        match ser P m, rest with
        | [], [] => Ok []
        | [], m' :: _ =>
            match parse P [hd 0%N (vlen m'); 0%N] with
            | Some x => l <- r_expect rest ;; Ok (x :: l)
            | None => Throw "Something went wrong while deserialization"
            end
        | _, _ => l <- r_expect rest ;; Ok (m :: l)
        end
    end.

  Lemma r_all : forall ms pre f, (forall m, In m ms -> fits P m = true) -> length (fc_written P ms) < f ->
    r_go P f (pre ++ fc_written P ms) (length pre) = r_expect ms.
  Proof.
    induction ms as [|m ms IH]; intros pre f HF Hf.
    - destruct f; [lia|]. cbn [fc_written flat_map r_go r_expect]. rewrite app_nil_r.
      replace (length pre + 1 <? length pre) with false by (symmetry; apply Nat.ltb_ge; lia). reflexivity.
    - assert (F : fits P m = true) by (apply HF; left; reflexivity).
      change (fc_written P (m :: ms)) with (delim P m ++ fc_written P ms) in *.
      destruct f as [|f]; [lia|]. rewrite app_length in Hf. pose proof (vlen_pos m) as Lv.
      assert (Ld : length (delim P m) = length (vlen m) + length (ser P m)) by (rewrite (delim_fits m F), app_length; reflexivity).
      cbn [r_expect]. destruct (ser P m) as [|y s] eqn:Es.
      + assert (Ev : vlen m = [0%N]) by (unfold vlen; rewrite Es; reflexivity).
        destruct ms as [|m' ms].
        * cbn [fc_written flat_map]. rewrite (delim_fits m F), Es, Ev. cbn [app r_go].
          replace (length pre + 1 <? length (pre ++ [0%N])) with false by (symmetry; apply Nat.ltb_ge; rewrite app_length; cbn; lia). reflexivity.
        * assert (F' : fits P m' = true) by (apply HF; right; left; reflexivity). pose proof (vlen_pos m') as Lv'.
          rewrite (delim_fits m F), Es, app_nil_r.
          rewrite r_turn; [|exact F|rewrite Ev; change (fc_written P (m' :: ms)) with (delim P m' ++ fc_written P ms); rewrite (delim_fits m' F'), !app_length; cbn [length]; lia].
          rewrite Es. cbn [length r_slice]. rewrite Ev at 2 4. cbn [length]. replace (length pre + 1 - 1) with (length pre) by lia.
          replace (raw_at (pre ++ vlen m ++ fc_written P (m' :: ms)) (length pre)) with 0%N by (rewrite Ev; symmetry; apply raw_here).
          replace (raw_at (pre ++ vlen m ++ fc_written P (m' :: ms)) (length pre + 1)) with (hd 0%N (vlen m')).
          2:{ replace (length pre + 1) with (length (pre ++ vlen m)) by (rewrite Ev, app_length; reflexivity). rewrite app_assoc.
              change (fc_written P (m' :: ms)) with (delim P m' ++ fc_written P ms). rewrite (delim_fits m' F').
              destruct (vlen m') as [|b v]; [cbn in Lv'; lia|]. cbn [app hd]. symmetry. apply raw_here. }
          destruct (parse P [hd 0%N (vlen m'); 0%N]) as [x|]; [|reflexivity].
          rewrite Ev at 2. cbn [length]. rewrite Nat.add_0_r. replace (length pre + 1) with (length (pre ++ vlen m)) by (rewrite Ev, app_length; reflexivity).
          rewrite app_assoc, IH; [reflexivity|intros z Hz; apply HF; right; exact Hz|].
          rewrite Ld, Ev in Hf. cbn [length] in Hf. lia.
      + rewrite r_whole; [|exact F|rewrite Es; discriminate]. rewrite IH; [reflexivity|intros z Hz; apply HF; right; exact Hz|lia].
  Qed.

  Theorem r_reads : forall ms, (forall m, In m ms -> fits P m = true) -> r_read P (fc_written P ms) = r_expect ms.
  Proof. intros ms HF. apply (r_all ms [] _ HF). cbn [app]. lia. Qed.

  Theorem r_roundtrip : forall ms, (forall m, In m ms -> fits P m = true /\ ser P m <> []) -> r_read P (fc_written P ms) = Ok ms.
  Proof.
    intros ms H. rewrite r_reads by (intros m Hm; apply H; exact Hm). induction ms as [|m ms IH]; [reflexivity|]. cbn [r_expect].
    destruct (ser P m) eqn:E; [exfalso; apply (H m); [left; reflexivity|exact E]|]. rewrite IH; [reflexivity|]. intros x Hx. apply H. right; exact Hx.
  Qed.

  (** A final empty message is dropped. *)
  Theorem r_last_empty : forall ms m, (forall m, In m ms -> fits P m = true /\ ser P m <> []) -> ser P m = [] ->
    r_read P (fc_written P (ms ++ [m])) = Ok ms.
  Proof.
    intros ms m H E. rewrite r_reads.
    - induction ms as [|x ms IH]; cbn [app r_expect]; [rewrite E; reflexivity|].
      destruct (ser P x) eqn:Ex; [exfalso; apply (H x); [left; reflexivity|exact Ex]|]. rewrite IH; [reflexivity|]. intros y Hy. apply H. right; exact Hy.
    - intros x Hx. apply in_app_or in Hx. destruct Hx as [Hx|[<-|[]]]; [apply H; exact Hx|]. unfold fits. rewrite E. reflexivity.
  Qed.

  Lemma r_prefix : forall ms pre tail f, (forall m, In m ms -> fits P m = true /\ ser P m <> []) -> length (fc_written P ms ++ tail) < f ->
    exists f', length tail < f' /\ r_go P f (pre ++ fc_written P ms ++ tail) (length pre) =
      (l <- r_go P f' ((pre ++ fc_written P ms) ++ tail) (length (pre ++ fc_written P ms)) ;; Ok (ms ++ l)).
  Proof.
    induction ms as [|m ms IH]; intros pre tail f H Hf.
    - exists f. split; [exact Hf|]. cbn [fc_written flat_map app]. rewrite !app_nil_r. destruct (r_go P f (pre ++ tail) (length pre)); reflexivity.
    - destruct f as [|f]; [lia|]. destruct (H m (or_introl eq_refl)) as (F & NE).
      change (fc_written P (m :: ms)) with (delim P m ++ fc_written P ms) in *. rewrite <- (app_assoc (delim P m)).
      rewrite r_whole by assumption. pose proof (vlen_pos m).
      destruct (IH (pre ++ delim P m) tail f) as (f' & L & E).
      + intros x Hx. apply H. right; exact Hx.
      + rewrite !app_length in *. rewrite (delim_fits m F), app_length in Hf. lia.
      + exists f'. split; [exact L|]. rewrite E. rewrite (app_assoc pre (delim P m) (fc_written P ms)).
        destruct (r_go P f' _ _); reflexivity.
  Qed.

  (** A file cut inside message [j]: what is handed to the parser. *)
  Definition padded (m : Msg P) (r : nat) : bytes :=
    let len := N.of_nat (length (ser P m)) in
    let v := length (varint len) in
    if v <=? r then firstn (r - v) (ser P m) ++ repeat 0%N (length (ser P m) - (r - v))
    else let w := (len mod 2 ^ (7 * N.of_nat r))%N in repeat 0%N (if (w =? 0)%N then 2 else N.to_nat w).

  Theorem r_cut : forall ms k j m, (forall m, In m ms -> fits P m = true /\ ser P m <> []) -> whole_within P ms k j -> nth_error ms j = Some m ->
    let r := k - length (fc_written P (firstn j ms)) in
    r_read P (firstn k (fc_written P ms)) =
      if r <=? 1 then Ok (firstn j ms)
      else match parse P (padded m r) with
           | Some x => Ok (firstn j ms ++ [x])
           | None => Throw "Something went wrong while deserialization"
           end.
  Proof.
    intros ms k j m H (J1 & J2 & J3) Hm r.
    assert (Hj : j < length ms) by (apply nth_error_Some; congruence). specialize (J3 Hj).
    destruct (H m (nth_error_In _ _ Hm)) as (F & NE).
    assert (ES : firstn (S j) ms = firstn j ms ++ [m]).
    { clear -Hm. revert j Hm. induction ms as [|x l IH]; intros [|j] H; simpl in *; try discriminate.
      - injection H as ->. destruct l; reflexivity.
      - f_equal. apply IH; auto. }
    assert (EW : fc_written P (firstn (S j) ms) = fc_written P (firstn j ms) ++ delim P m).
    { rewrite ES. unfold fc_written. rewrite flat_map_app. simpl. rewrite app_nil_r. reflexivity. }
    assert (EM : exists t, fc_written P ms = fc_written P (firstn j ms) ++ delim P m ++ t).
    { exists (fc_written P (skipn (S j) ms)). rewrite <- (firstn_skipn (S j) ms) at 1. unfold fc_written at 1.
      rewrite flat_map_app. fold (fc_written P (firstn (S j) ms)). rewrite EW, <- app_assoc. reflexivity. }
    destruct EM as (t & EM). rewrite EW, app_length in J3.
    assert (EC : firstn k (fc_written P ms) = fc_written P (firstn j ms) ++ firstn r (delim P m)).
    { rewrite EM, firstn_app, firstn_all2 by lia. f_equal. fold r. rewrite firstn_app.
      replace (r - length (delim P m)) with 0 by lia. rewrite firstn_O, app_nil_r. reflexivity. }
    rewrite EC. unfold r_read.
    destruct (r_prefix (firstn j ms) [] (firstn r (delim P m)) (S (length (fc_written P (firstn j ms) ++ firstn r (delim P m))))) as (f & L & E).
    { intros x Hx. apply H. rewrite <- (firstn_skipn j ms). apply in_or_app. auto. }
    { lia. }
    cbn [app length] in E. rewrite E. clear E EC. set (pre := fc_written P (firstn j ms)).
    assert (Er : length (firstn r (delim P m)) = r) by (rewrite firstn_length; lia). rewrite Er in L.
    destruct f as [|f]; [lia|]. destruct (Nat.leb_spec r 1) as [R1|R1].
    { cbn [r_go]. replace (length pre + 1 <? length (pre ++ firstn r (delim P m))) with false by (symmetry; apply Nat.ltb_ge; rewrite app_length, Er; lia).
      cbn [rbind]. rewrite app_nil_r. reflexivity. }
    unfold padded. fold (vlen m). set (v := length (vlen m)). destruct (Nat.leb_spec v r) as [Lv|Lv].
    2:{ assert (Fm := proj1 (N.ltb_lt _ _) F). assert (EF : firstn r (delim P m) = firstn r (vlen m)).
        { rewrite (delim_fits m F), firstn_app. fold v. replace (r - v) with 0 by lia. rewrite firstn_O, app_nil_r. reflexivity. }
        cbn [r_go]. replace (length pre + 1 <? length (pre ++ firstn r (delim P m))) with true by (symmetry; apply Nat.ltb_lt; rewrite app_length, Er; lia).
        assert (Ep : length (pre ++ firstn r (vlen m)) = length pre + r) by (rewrite <- EF, app_length, Er; reflexivity).
        assert (V5 : v <= 5) by (unfold v, vlen, varint; apply enc_le).
        rewrite EF. unfold vlen at 1, varint. rewrite r_dec_cut by (try (fold (varint (N.of_nat (length (ser P m)))); fold (vlen m); fold v); lia).
        fold (varint (N.of_nat (length (ser P m)))). fold (vlen m).
        set (w := (N.of_nat (length (ser P m)) mod 2 ^ (7 * N.of_nat r))%N).
        assert (Hw : (w < int_max)%N).
        { eapply N.le_lt_trans; [apply N.mod_le; apply N.pow_nonzero; discriminate|exact Fm]. }
        rewrite (N.mod_small w) by (eapply N.lt_trans; [exact Hw|reflexivity]). rewrite (proj2 (N.ltb_lt w int_max) Hw).
        assert (Hs : r_slice (pre ++ firstn r (vlen m)) (length pre + r + 1) (N.to_nat w) = repeat 0%N (if (w =? 0)%N then 2 else N.to_nat w)).
        { assert (Z0 : forall p, length pre + r <= p -> raw_at (pre ++ firstn r (vlen m)) p = 0%N) by (intros p Hp; unfold raw_at; apply nth_overflow; lia).
          destruct (N.eqb_spec w 0) as [W0|W0].
          - rewrite W0. cbn [N.to_nat r_slice repeat]. rewrite !Z0 by lia. reflexivity.
          - destruct (N.to_nat w) as [|l] eqn:El; [lia|]. unfold r_slice. generalize (S l) as q. intros q.
            assert (K : forall q s, length pre + r <= s -> map (raw_at (pre ++ firstn r (vlen m))) (seq s q) = repeat 0%N q).
            { induction q0 as [|q0 IHq]; intros s Hs; [reflexivity|]. cbn [seq map repeat]. rewrite Z0 by lia. f_equal. apply IHq. lia. }
            apply K. lia. }
        rewrite Hs. destruct (parse P _) as [x|]; [|reflexivity].
        destruct f as [|f]; [lia|]. cbn [r_go]. replace (_ <? _) with false; [cbn [rbind]; reflexivity|].
        symmetry. apply Nat.ltb_ge. lia. }
    assert (EF : firstn r (delim P m) = vlen m ++ firstn (r - v) (ser P m)).
    { rewrite (delim_fits m F), firstn_app. fold v. rewrite firstn_all2 by (fold v; lia). reflexivity. }
    rewrite (delim_fits m F), app_length in J3. fold v in J3.
    rewrite EF in *. rewrite r_turn; [|exact F|lia].
    assert (Ls : 0 < length (ser P m)) by (destruct (ser P m); [congruence|cbn; lia]).
    replace (pre ++ vlen m ++ firstn (r - v) (ser P m)) with ((pre ++ vlen m) ++ firstn (r - v) (ser P m)) by (rewrite <- app_assoc; reflexivity).
    rewrite <- app_length, slice_padded by exact Ls.
    rewrite firstn_firstn, firstn_length. replace (Nat.min (length (ser P m)) (r - v)) with (r - v) by lia. replace (Nat.min (r - v) (length (ser P m))) with (r - v) by lia.
    destruct (parse P _) as [x|]; [|reflexivity].
    destruct f as [|f]; [lia|]. cbn [r_go]. replace (_ <? _) with false; [cbn [rbind]; reflexivity|].
    symmetry. apply Nat.ltb_ge. rewrite (app_length (pre ++ vlen m)), firstn_length. lia.
  Qed.
End R.
