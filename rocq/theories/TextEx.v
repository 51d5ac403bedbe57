(** * Texts for given messages: used for the examples of P_SetVec.v.

    Names, whole numbers of one digit and nested messages, one blank before each token. *)
From Coq Require Import String Ascii.
From Coq Require Import List NArith ZArith Bool Lia.
From Verif Require Import Schema WireFacts Text TextSpec TextFacts TextLex.
Import ListNotations.
Local Open Scope N_scope.

Definition digit (n : N) : ascii := ascii_of_N (48 + n).

Definition simple (t : token) : bool :=
  match t with
  | TId (c :: s) => is_letter c && forallb is_word s
  | TNum n => n <? 10
  | TSym c => existsb (Ascii.eqb c) [":"; "{"; "}"; "["; "]"; ","]%char
  | _ => false
  end.
Definition spelling (t : token) : text :=
  match t with TId s => s | TNum n => [digit n] | TSym c => [c] | _ => [] end.
Definition print (ts : list token) : text := flat_map (fun t => " "%char :: spelling t) ts.

Lemma print_next : forall ts, match print ts with [] => True | c :: _ => is_word c = false /\ c <> "."%char end.
Proof. intros [|t ts]; [exact I|]. cbn. split; [reflexivity|discriminate]. Qed.

Lemma digit_digits : forall n, n < 10 -> digits [digit n] n.
Proof.
  intros n H. replace n with (10 * 0 + n) at 2 by lia. apply (dg_more [] 0 (digit n) n dg_none H).
  unfold code, digit. apply N_ascii_embedding. lia.
Qed.

Lemma print_laid : forall ts, forallb simple ts = true -> laid_out (print ts) ts.
Proof.
  induction ts as [|t ts IH]; intros H; [apply lo_end, gap_none|]. cbn [forallb] in H. apply andb_true_iff in H as [T H].
  change (print (t :: ts)) with ([" "%char] ++ spelling t ++ print ts). apply lo_token; [apply gap_space; [reflexivity|apply gap_none]| | |exact (IH H)].
  - destruct t as [[|c s]|n|m e|s|c|]; try discriminate; cbn in T.
    + apply andb_true_iff in T as [L W]. apply sp_id; [exact L|]. apply Forall_forall. intros x X. exact (proj1 (forallb_forall _ _) W x X).
    + apply N.ltb_lt in T. apply sp_num; [exact (digit_digits n T)|discriminate|]. intros c r E N. injection E as _ <-. congruence.
    + apply sp_sym. repeat (apply orb_true_iff in T as [T|T]; [apply Ascii.eqb_eq in T as ->; cbn; tauto|]). discriminate.
  - pose proof (print_next ts) as P. destruct t; cbn; exact P || exact I.
Qed.

(** ** Messages *)
Definition onceb (t : string) (m : tmessage) : bool :=
  forallb (fun f => frep f || (length (entries (fnum f) m) <=? 1)%nat) (fields t) &&
  forallb (fun f => forallb (fun g =>
    match fone f, fone g, entries (fnum f) m, entries (fnum g) m with
    | Some o, Some o', _ :: _, _ :: _ => negb (o =? o')%string || (fnum f =? fnum g)
    | _, _, _, _ => true
    end) (fields t)) (fields t).

Lemma onceb_once : forall t m, onceb t m = true -> once t m.
Proof.
  intros t m H. apply andb_true_iff in H as [A B]. split.
  - intros f F R. pose proof (proj1 (forallb_forall _ _) A f F) as C. cbn in C. rewrite R in C. apply Nat.leb_le in C. exact C.
  - intros f g o v w F G Ff Fg V W. pose proof (proj1 (forallb_forall _ _) (proj1 (forallb_forall _ _) B f F) g G) as C. cbn in C.
    rewrite Ff, Fg in C. apply entries_in in V. apply entries_in in W. destruct (entries (fnum f) m) as [|a l]; [destruct V|]. destruct (entries (fnum g) m) as [|a' l']; [destruct W|].
    rewrite String.eqb_refl in C. cbn in C. apply N.eqb_eq in C. exact (nodup_same (fields t) f g (nums_nodup t) F G C).
Qed.

Fixpoint toks (n : nat) (t : string) (m : tmessage) : option (list token) :=
  match n with
  | O => None
  | S n' =>
      if onceb t m then
        fold_right (fun e acc =>
          match acc, field_no t (fst e) with
          | Some ts, Some f =>
              match fkind f, snd e with
              | KInt32, XInt (Z0) => Some (word_of (fname f) :: TSym ":" :: TNum 0 :: ts)
              | KInt32, XInt (Zpos p) | KUint32, XInt (Zpos p) => if (Npos p <? 2 ^ 31) then Some (word_of (fname f) :: TSym ":" :: TNum (Npos p) :: ts) else None
              | KBool, XInt 1%Z => Some (word_of (fname f) :: TSym ":" :: word_of "true" :: ts)
              | KDouble, XDec false k 0 => Some (word_of (fname f) :: TSym ":" :: TNum k :: ts)
              | KMsg t', XMsg m' => match toks n' t' m' with Some us => Some (word_of (fname f) :: TSym "{" :: us ++ TSym "}" :: ts) | None => None end
              | _, _ => None
              end
          | _, _ => None
          end) (Some []) m
      else None
  end.

Lemma field_no_in : forall t k f, field_no t k = Some f -> In f (fields t) /\ fnum f = k.
Proof. intros t k f H. unfold field_no in H. apply find_some in H as [A B]. split; [exact A|]. apply N.eqb_eq. exact B. Qed.

Lemma toks_written : forall n t m ts, toks n t m = Some ts -> written t m ts /\ once t m.
Proof.
  induction n as [|n IH]; intros t m ts H; [discriminate|]. cbn [toks] in H. destruct (onceb t m) eqn:O; [|discriminate]. split; [|exact (onceb_once t m O)].
  clear O. revert ts H. induction m as [|[k v] m IHm]; intros ts H; [injection H as <-; apply wr_end|].
  cbn [fold_right fst snd] in H. match type of H with context [fold_right ?F ?A m] => set (r := fold_right F A m) in H, IHm end.
  destruct r as [us|]; [|discriminate]. specialize (IHm us eq_refl). destruct (field_no t k) as [f|] eqn:E; [|discriminate]. apply field_no_in in E as [F <-].
  assert (Sc : forall v0 w, scalar_written (fkind f) v0 [w] -> written t ((fnum f, v0) :: m) (word_of (fname f) :: TSym ":" :: w :: us)).
  { intros v0 w S. refine (wr_field t f [v0] [TSym ":"; w] [] m us F _ (or_introl eq_refl) IHm).
    apply (fw_one f [TSym ":"] v0 [w]); [left; reflexivity|apply vw_scalar; exact S]. }
  destruct (fkind f) as [| | | | |t'] eqn:K.
  - destruct v as [[|p|p]|neg q e|neg| |s|m']; try discriminate.
    + injection H as <-. apply Sc. apply (sw_int 0). reflexivity.
    + destruct (Npos p <? 2 ^ 31) eqn:L; [|discriminate]. injection H as <-. apply Sc. apply (sw_int (Npos p)). apply N.ltb_lt. exact L.
  - destruct v as [[|p|p]|neg q e|neg| |s|m']; try discriminate.
    destruct (Npos p <? 2 ^ 31) eqn:L; [|discriminate]. injection H as <-. apply Sc. apply (sw_uint (Npos p)). apply N.ltb_lt in L. lia.
  - destruct v as [[|[p|p|]|p]|neg q e|neg| |s|m']; try discriminate. injection H as <-. apply Sc. apply sw_true. left. reflexivity.
  - destruct v as [z|[|] q [|e|e]|neg| |s|m']; try discriminate. injection H as <-. apply Sc. apply sw_whole.
  - destruct v; discriminate.
  - destruct v as [z|neg q e|neg| |s|m']; try discriminate. destruct (toks n t' m') as [ws|] eqn:T; [|discriminate]. injection H as <-. destruct (IH t' m' ws T) as [W O].
    replace (word_of (fname f) :: TSym "{" :: ws ++ TSym "}" :: us) with (word_of (fname f) :: (TSym "{" :: ws ++ [TSym "}"]) ++ [] ++ us)
      by (cbn; rewrite <- app_assoc; reflexivity).
    refine (wr_field t f [XMsg m'] _ [] m us F _ (or_introl eq_refl) IHm).
    apply (fw_one f [] (XMsg m') (TSym "{" :: ws ++ [TSym "}"])); [right; split; [reflexivity|rewrite K; reflexivity]|]. rewrite K. exact (vw_braces t' m' ws W O).
Qed.

(** The text of a message. *)
Definition text_of (t : string) (m : tmessage) : text := match toks 9 t m with Some ts => print ts | None => [] end.
Definition writable (t : string) (m : tmessage) : bool := match toks 9 t m with Some ts => forallb simple ts | None => false end.

Lemma text_of_ok : forall t m, writable t m = true -> exists ts, laid_out (text_of t m) ts /\ written t m ts /\ once t m.
Proof.
  intros t m H. unfold writable, text_of in *. destruct (toks 9 t m) as [ts|] eqn:E; [|discriminate]. exists ts. destruct (toks_written 9 t m ts E) as [A B].
  split; [exact (print_laid ts H)|]. split; assumption.
Qed.
