(** * Facts about chains on file and in memory. *)
From Coq Require Import String.
From Coq Require Import List Arith NArith Bool Lia.
From Verif Require Import Base Collect.
Import ListNotations.

(** ** What the readers should deliver, without buffers, futures or cursors into bytes *)

Inductive rop : Type := RNext | RReset.

(** A cursor over a list that jumps back to the start when the end was told. *)
Fixpoint wrapping {M} (ms : list M) (ops : list rop) (pos : nat) : list (option M) :=
  match ops with
  | [] => []
  | RReset :: o => wrapping ms o 0
  | RNext :: o => match nth_error ms pos with
                  | Some m => Some m :: wrapping ms o (S pos)
                  | None => None :: wrapping ms o 0
                  end
  end.

Section Run.
  Variables C M : Type.
  Variable next : C -> res (C * option M).
  Variable reset : C -> C.
  Fixpoint run_reads (ops : list rop) (c : C) : res (list (option M)) :=
    match ops with
    | [] => Ok []
    | RReset :: o => run_reads o (reset c)
    | RNext :: o => '(c', x) <- next c ;; l <- run_reads o c' ;; Ok (x :: l)
    end.
End Run.

(** The longest list of whole messages that fits in the first [k] bytes. *)
Definition whole_within (P : proto) (ms : list (Msg P)) (k j : nat) : Prop :=
  j <= length ms /\ length (fc_written P (firstn j ms)) <= k /\
  (j < length ms -> k < length (fc_written P (firstn (S j) ms))).

(** ** Varints *)
Lemma dec_enc : forall f n e r, (n < 2 ^ (7 * N.of_nat (S f)))%N -> dec (S f + e) (enc (S f) n ++ r) = Some (n, r).
Proof.
  induction f as [|f IH]; intros n e r Hn.
  - change (2 ^ (7 * N.of_nat 1))%N with 128%N in Hn. cbn [enc]. apply N.ltb_lt in Hn. rewrite Hn. simpl. rewrite Hn. reflexivity.
  - change (enc (S (S f)) n) with (if (n <? 128)%N then [n] else (n mod 128 + 128)%N :: enc (S f) (n / 128)).
    destruct (n <? 128)%N eqn:E.
    + simpl. rewrite E. reflexivity.
    + change (dec (S (S f) + e) (((n mod 128 + 128)%N :: enc (S f) (n / 128)) ++ r))
        with (if (n mod 128 + 128 <? 128)%N then Some ((n mod 128 + 128)%N, enc (S f) (n / 128) ++ r)
              else match dec (S f + e) (enc (S f) (n / 128) ++ r) with
                   | Some (v, r') => Some ((n mod 128 + 128 - 128) + 128 * v, r')%N | None => None end).
      destruct (N.ltb_spec (n mod 128 + 128) 128) as [L|L]; [exfalso; clear -L; generalize dependent (n mod 128)%N; intros; lia|].
      rewrite IH.
      * f_equal. f_equal. pose proof (N.div_mod n 128 ltac:(discriminate)) as DM. clear -DM. generalize dependent (n mod 128)%N. generalize dependent (n / 128)%N. intros; lia.
      * apply N.div_lt_upper_bound; [lia|]. eapply N.lt_le_trans; [exact Hn|].
        replace (7 * N.of_nat (S (S f)))%N with (7 + 7 * N.of_nat (S f))%N by lia.
        rewrite N.pow_add_r. reflexivity.
Qed.

Lemma dec_cut : forall f n g k, k < length (enc f n) -> dec g (firstn k (enc f n)) = None.
Proof.
  induction f as [|f IH]; intros n g k Hk; [simpl in Hk; lia|].
  cbn [enc] in *. destruct (n <? 128)%N.
  - simpl in Hk. replace k with 0 by lia. destruct g; reflexivity.
  - destruct k as [|k]; [destruct g; reflexivity|]. cbn [firstn]. destruct g as [|g]; [reflexivity|].
    cbn [dec]. destruct (N.ltb_spec (n mod 128 + 128) 128) as [L|L]; [exfalso; clear -L; generalize dependent (n mod 128)%N; intros; lia|].
    rewrite IH; [reflexivity|]. simpl in Hk. lia.
Qed.

Lemma read_varint_enc : forall n r, (n < int_max)%N -> read_varint (varint n ++ r) = Some (n, r).
Proof.
  intros n r Hn. unfold read_varint, varint. change 10 with (5 + 5). rewrite (dec_enc 4 n 5 r).
  - rewrite N.mod_small; [reflexivity|]. eapply N.lt_trans; [exact Hn|]. reflexivity.
  - eapply N.lt_trans; [exact Hn|]. reflexivity.
Qed.

Lemma dec_shorter : forall f bs v r, dec f bs = Some (v, r) -> length r < length bs.
Proof.
  induction f as [|f IH]; intros [|b bs] v r H; try discriminate. cbn [dec] in H.
  destruct (b <? 128)%N.
  - injection H as _ <-. simpl. lia.
  - destruct (dec f bs) as [[v' r']|] eqn:E; [|discriminate]. injection H as _ <-. apply IH in E. simpl. lia.
Qed.

Lemma varint_nonempty : forall n, 0 < length (varint n).
Proof. intros n. unfold varint. cbn [enc]. destruct (n <? 128)%N; simpl; lia. Qed.

(** ** Messages of a byte string *)
Section Proto.
  Variable P : proto.

  Inductive yields : bytes -> list (Msg P) -> Prop :=
  | yields_end : forall bs, read_delim P bs = None -> yields bs []
  | yields_more : forall bs m r ms, read_delim P bs = Some (m, r) -> yields r ms -> yields bs (m :: ms).

  Lemma read_delim_shorter : forall bs m r, read_delim P bs = Some (m, r) -> length r < length bs.
  Proof.
    intros bs m r H. unfold read_delim, read_varint in H.
    destruct (dec 10 bs) as [[v r0]|] eqn:E; [|discriminate]. cbv zeta in H.
    apply dec_shorter in E. destruct (_ <? int_max)%N; [|discriminate]. destruct (_ <=? _); [|discriminate].
    destruct (parse P _); [|discriminate]. injection H as _ <-. rewrite skipn_length. eapply Nat.le_lt_trans; [apply Nat.le_sub_l|exact E].
  Qed.

  Lemma yields_total : forall bs, exists ms, yields bs ms /\ length ms <= length bs.
  Proof.
    intros bs. remember (length bs) as n eqn:En. revert bs En.
    induction n as [n IH] using lt_wf_ind. intros bs En.
    destruct (read_delim P bs) as [[m r]|] eqn:E; [|exists []; split; [constructor; auto|simpl; lia]].
    pose proof (read_delim_shorter _ _ _ E). destruct (IH (length r) ltac:(lia) r eq_refl) as (ms & H1 & H2).
    exists (m :: ms). split; [econstructor; eauto|simpl; lia].
  Qed.

  Lemma yields_fun : forall bs a, yields bs a -> forall b, yields bs b -> a = b.
  Proof.
    induction 1 as [bs E|bs m r ms E H IH]; intros b Hb; inversion Hb as [? E'|? m' r' ms' E' Hr]; subst; try congruence.
    rewrite E in E'. injection E' as <- <-. f_equal. auto.
  Qed.

  Variable law : forall m, parse P (ser P m) = Some m.

  Lemma read_delim_ok : forall m r, fits P m = true -> read_delim P (delim P m ++ r) = Some (m, r).
  Proof.
    intros m r F. unfold delim. rewrite F. unfold read_delim. rewrite <- app_assoc, read_varint_enc.
    2:{ apply N.ltb_lt. exact F. }
    unfold fits in F. rewrite F, Nnat.Nat2N.id, app_length.
    replace (length (ser P m) <=? length (ser P m) + length r) with true by (symmetry; apply Nat.leb_le; lia).
    rewrite firstn_app, Nat.sub_diag, firstn_all, firstn_O, app_nil_r, law.
    rewrite skipn_app, Nat.sub_diag, skipn_all. reflexivity.
  Qed.

  Lemma read_delim_cut : forall m k, fits P m = true -> k < length (delim P m) -> read_delim P (firstn k (delim P m)) = None.
  Proof.
    intros m k F Hk. unfold delim in *. rewrite F in *. unfold read_delim.
    destruct (Nat.lt_ge_cases k (length (varint (N.of_nat (length (ser P m)))))) as [Hlt|Hge].
    - rewrite firstn_app. replace (k - length (varint (N.of_nat (length (ser P m))))) with 0 by lia.
      rewrite firstn_O, app_nil_r. unfold read_varint, varint. rewrite dec_cut; auto.
    - rewrite firstn_app, firstn_all2 by lia. rewrite read_varint_enc by (apply N.ltb_lt; exact F).
      unfold fits in F. rewrite F, Nnat.Nat2N.id, firstn_length, app_length in *.
      match goal with |- context [?a <=? ?b] => destruct (Nat.leb_spec a b) as [L|L] end; [lia|reflexivity].
  Qed.

  Lemma written_fits : forall ms, fc_written P ms = fc_written P (filter (fits P) ms).
  Proof.
    induction ms as [|m ms IH]; [reflexivity|]. cbn [filter fc_written flat_map]. unfold fc_written in *.
    destruct (fits P m) eqn:F; cbn [flat_map]; rewrite IH; auto.
    unfold delim at 1. rewrite F. reflexivity.
  Qed.

  Lemma read_delim_nil : read_delim P [] = None.
  Proof. reflexivity. Qed.

  Lemma delim_pos : forall m, fits P m = true -> 0 < length (delim P m).
  Proof. intros m F. unfold delim. rewrite F, app_length. pose proof (varint_nonempty (N.of_nat (length (ser P m)))). lia. Qed.

  Lemma written_yields : forall ms, yields (fc_written P ms) (filter (fits P) ms).
  Proof.
    intros ms. rewrite written_fits.
    assert (HF : forall m, In m (filter (fits P) ms) -> fits P m = true) by (intros m H; apply filter_In in H; tauto).
    revert HF. generalize (filter (fits P) ms). clear ms.
    induction l as [|m l IH]; intros HF; [constructor; reflexivity|].
    econstructor; [|apply IH; intros; apply HF; right; auto].
    unfold fc_written. cbn [flat_map]. apply read_delim_ok. apply HF. left; auto.
  Qed.

  Lemma cut_yields : forall ms k, (forall m, In m ms -> fits P m = true) ->
    exists j, whole_within P ms k j /\ yields (firstn k (fc_written P ms)) (firstn j ms).
  Proof.
    induction ms as [|m ms IH]; intros k HF.
    - exists 0. split; [split; [simpl; lia|split; simpl; lia]|]. rewrite firstn_nil. constructor. reflexivity.
    - assert (Fm : fits P m = true) by (apply HF; left; auto).
      destruct (Nat.lt_ge_cases k (length (delim P m))) as [Hlt|Hge].
      + exists 0. split.
        * split; [simpl; lia|]. split; [simpl; lia|]. intros _. cbn [firstn fc_written flat_map]. rewrite app_length. lia.
        * cbn [firstn]. constructor. cbn [fc_written flat_map]. rewrite firstn_app.
          replace (k - length (delim P m)) with 0 by lia. rewrite firstn_O, app_nil_r. apply read_delim_cut; auto.
      + destruct (IH (k - length (delim P m)) (fun x Hx => HF x (or_intror Hx))) as (j & (J1 & J2 & J3) & Y).
        exists (S j). split.
        * split; [simpl; lia|]. split.
          { cbn [firstn fc_written flat_map]. rewrite app_length. unfold fc_written in J2. lia. }
          { intros H. specialize (J3 ltac:(simpl in H; lia)). change (firstn (S (S j)) (m :: ms)) with (m :: firstn (S j) ms).
            cbn [fc_written flat_map]. rewrite app_length. unfold fc_written in J3. lia. }
        * cbn [firstn]. econstructor; [|exact Y]. cbn [fc_written flat_map]. rewrite firstn_app, firstn_all2 by lia.
          apply read_delim_ok; auto.
  Qed.

  (** ** The file collector *)
  Definition fc_inv (c : fcoll) : Prop :=
    0 < f_chunk c /\
    (f_open c = true -> f_pos c < f_chunk c /\ length (f_buf c) = f_chunk c /\
       forall j, f_pos c < j < f_chunk c -> nth_error (f_buf c) j = Some true).

  Definition fc_input (c : fcoll) : bytes := if f_open c then f_in c else f_disk c.

  Lemma nth_repeat_true : forall n j, j < n -> nth_error (repeat true n) j = Some true.
  Proof. induction n as [|n IH]; intros [|j] H; simpl; auto; try lia. apply IH. lia. Qed.

  Lemma upd_length' : forall A (l : list A) i x, length (upd l i x) = length l.
  Proof. induction l as [|a l IH]; intros [|i] x; simpl; auto. Qed.
  Lemma nth_upd_other : forall A (l : list A) i j x, i <> j -> nth_error (upd l i x) j = nth_error l j.
  Proof. induction l as [|a l IH]; intros [|i] [|j] x H; simpl; auto; try congruence. Qed.

  Lemma fc_next_step : forall c, fc_inv c ->
    exists c', fc_next P c = Ok (c', match read_delim P (fc_input c) with Some (m, _) => Some m | None => None end) /\
      fc_inv c' /\ f_disk c' = f_disk c /\ f_chunk c' = f_chunk c /\
      match read_delim P (fc_input c) with
      | Some (_, r) => f_open c' = true /\ f_in c' = r
      | None => f_open c' = false
      end.
  Proof.
    intros c (Hch & Hop). unfold fc_next, fc_input.
    set (c0 := if f_open c then c else fc_populate (fc_open c)).
    assert (H0 : f_disk c0 = f_disk c /\ f_chunk c0 = f_chunk c /\ f_open c0 = true /\
                 f_in c0 = (if f_open c then f_in c else f_disk c) /\ f_pos c0 < f_chunk c /\ length (f_buf c0) = f_chunk c /\
                 forall j, f_pos c0 < j < f_chunk c -> nth_error (f_buf c0) j = Some true).
    { unfold c0. destruct (f_open c) eqn:E.
      - destruct (Hop eq_refl) as (A & B & D). auto 10.
      - simpl. rewrite repeat_length. repeat split; auto. intros j Hj. apply nth_repeat_true. lia. }
    destruct H0 as (E1 & E2 & E3 & E4 & E5 & E6 & E7). rewrite <- E4. clearbody c0. clear Hop E4.
    cbv zeta. cbn [f_pos f_chunk f_disk f_open f_in f_buf f_iter].
    set (c1 := mkFc (f_disk c0) (f_chunk c0) (f_open c0) (f_in c0) (S (f_pos c0)) (f_buf c0) (S (f_iter c0))).
    set (c2 := if S (f_pos c0) =? f_chunk c0 then fc_populate c1 else c1).
    assert (H2 : f_disk c2 = f_disk c /\ f_chunk c2 = f_chunk c /\ f_open c2 = true /\ f_in c2 = f_in c0 /\ f_pos c2 < f_chunk c /\
                 length (f_buf c2) = f_chunk c /\ nth_error (f_buf c2) (f_pos c2) = Some true /\
                 forall j, f_pos c2 < j < f_chunk c -> nth_error (f_buf c2) j = Some true).
    { unfold c2. destruct (Nat.eqb_spec (S (f_pos c0)) (f_chunk c0)) as [E|E]; cbn [f_disk f_chunk f_open f_in f_pos f_buf fc_populate c1].
      - unfold c1; cbn [f_disk f_chunk f_open f_in f_pos f_buf]. rewrite repeat_length, E2. repeat split; auto.
        + apply nth_repeat_true. auto.
        + intros j Hj. apply nth_repeat_true. lia.
      - repeat split; auto; try lia.
        + apply E7. lia.
        + intros j Hj. apply E7. lia. }
    destruct H2 as (F1 & F2 & F3 & F4 & F5 & F6 & F7 & F8). clearbody c2. unfold at_. rewrite F7. cbn [rbind]. rewrite F4.
    destruct (read_delim P (f_in c0)) as [[m r]|].
    - eexists. split; [reflexivity|]. split; [|cbn; auto]. split; cbn; [lia|]. intros _. rewrite upd_length'. split; [lia|]. split; [lia|].
      intros j Hj. rewrite nth_upd_other by lia. apply F8. lia.
    - eexists. split; [reflexivity|]. split; [|cbn; auto]. split; cbn; [lia|discriminate].
  Qed.

  Lemma fc_reset_inv : forall c, fc_inv c -> fc_inv (fc_reset c) /\ f_disk (fc_reset c) = f_disk c /\ f_open (fc_reset c) = false.
  Proof. intros c (H & _). split; [split; [exact H|discriminate]|auto]. Qed.

  (** At position [pos] of the chain [ms]. *)
  Definition fc_at (ms : list (Msg P)) (c : fcoll) (pos : nat) : Prop :=
    fc_inv c /\ yields (f_disk c) ms /\ (f_open c = false -> pos = 0) /\
    (f_open c = true -> pos <= length ms /\ yields (f_in c) (skipn pos ms)).

  Lemma fc_at_next : forall ms c pos, fc_at ms c pos ->
    exists c', fc_next P c = Ok (c', nth_error ms pos) /\
      fc_at ms c' (match nth_error ms pos with Some _ => S pos | None => 0 end) /\
      (nth_error ms pos = None -> f_open c' = false).
  Proof.
    intros ms c pos (HI & HD & H0 & H1). destruct (fc_next_step c HI) as (c' & E & HI' & D' & C' & R).
    assert (Y : yields (fc_input c) (skipn pos ms) /\ pos <= length ms).
    { unfold fc_input. destruct (f_open c); [destruct (H1 eq_refl); auto|]. rewrite (H0 eq_refl). split; [exact HD|lia]. }
    destruct Y as [Y Hp]. exists c'. rewrite E.
    assert (K : match skipn pos ms with m :: _ => nth_error ms pos = Some m | [] => nth_error ms pos = None end /\
                (forall m r, skipn pos ms = m :: r -> r = skipn (S pos) ms /\ S pos <= length ms)).
    { clear -Hp. revert pos Hp. induction ms as [|m ms IH]; intros [|pos] Hp; simpl; auto.
      - split; auto. intros; discriminate.
      - simpl in Hp; lia.
      - split; auto. intros m0 r H. injection H as <- <-. split; auto. lia.
      - destruct (IH pos ltac:(simpl in Hp; lia)) as [A B]. split; auto. intros m0 r H. destruct (B _ _ H). split; auto. lia. }
    destruct K as [K1 K2].
    destruct (skipn pos ms) as [|m0 r0] eqn:Es; rewrite K1.
    - assert (N : read_delim P (fc_input c) = None) by (inversion Y; auto). rewrite N in *.
      split; auto. split; auto. split; auto. split; [rewrite D'; auto|]. split; auto. intros; congruence.
    - assert (N : exists r, read_delim P (fc_input c) = Some (m0, r) /\ yields r r0) by (inversion Y; eauto).
      destruct N as (r & N & Y'). rewrite N in *. split; auto. split; [|discriminate].
      destruct R as [R1 R2]. destruct (K2 _ _ eq_refl) as [K3 K4].
      split; auto. split; [rewrite D'; auto|]. split; [congruence|]. intros _. split; auto. rewrite <- K3, R2. auto.
  Qed.

  Lemma fc_at_reset : forall ms c pos, fc_at ms c pos -> fc_at ms (fc_reset c) 0.
  Proof.
    intros ms c pos (HI & HD & _). destruct (fc_reset_inv c HI) as (A & B & D).
    split; auto. split; [rewrite B; auto|]. split; auto. rewrite D. discriminate.
  Qed.

  Lemma fc_at_new : forall bs ms n, 0 < n -> yields bs ms -> fc_at ms (fc_new bs n) 0.
  Proof. intros bs ms n Hn Y. split; [split; [auto|discriminate]|]. split; auto. split; [auto|discriminate]. Qed.

  Lemma fc_runs : forall ms ops c pos, fc_at ms c pos -> run_reads _ _ (fc_next P) fc_reset ops c = Ok (wrapping ms ops pos).
  Proof.
    intros ms ops. induction ops as [|[|] ops IH]; intros c pos H; cbn [run_reads wrapping]; [reflexivity| |].
    - destruct (fc_at_next _ _ _ H) as (c' & E & H' & _). rewrite E. cbn [rbind].
      destruct (nth_error ms pos) as [m|]; rewrite (IH _ _ H'); reflexivity.
    - apply IH. eapply fc_at_reset; eauto.
  Qed.
End Proto.
